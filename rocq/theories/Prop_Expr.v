(** C15, C16, C17, C40: how operators are grouped (expressions.rs:18-103 with
    the binding powers of token.rs:218-312), compared with the table of the PHP
    manual in SpecExpr.v.

    The expressions are chains of any length over literals, variables and
    parenthesised chains of any depth. *)

From Verif Require Import Base Token Scanner Node DocBlock Parser SpecCalm SpecExpr PrattFacts.

(** With enough fuel the parser reads exactly the tokens [w], whatever comments
    and line breaks are in between, answers [n], reports no error and is left in
    front of [rest]. *)
Definition reads_as `{RT : Runtime} (w : list Token) (n : Node) (rest : list Token) : Prop :=
  exists k, forall fuel s, (k <= fuel)%nat ->
  filter significant (p_toks s) = w ++ rest -> Forall measured (p_toks s) ->
  exists s', expression fuel 0 s = POk n s' /\ filter significant (p_toks s') = rest /\ p_errs s' = p_errs s.

(** [.] does not meet [+], [-], [<<] and [>>] *)
Definition concat_apart (c : chain) : Prop :=
  (forall t, In t (chain_tokens c) -> t_type t <> TConcat) \/
  (forall t, In t (chain_tokens c) -> ~ In (t_type t) [TPlus; TMinus; TLeftShift; TRightShift]).

(** [n] is the operand [o], with the chains inside it grouped in some way *)
Definition stands_for (o : operand) (n : Node) : Prop := GroupsO (fun _ _ => True) (fun _ _ => True) o n.

(** the operands one after the other, joined to the right / to the left *)
Inductive to_the_right : chain -> Node -> Prop :=
| TR_one : forall o n, stands_for o n -> to_the_right (One o) n
| TR_more : forall o op c n m, stands_for o n -> to_the_right c m ->
    to_the_right (More o op c) (NBinary n op m).
Inductive to_the_left : chain -> Node -> Prop :=
| TL_one : forall o n, stands_for o n -> to_the_left (One o) n
| TL_more : forall o op c n m, to_the_left c m -> stands_for o n ->
    to_the_left (join c op (One o)) (NBinary m op n).

(** * Auxiliary facts *)

Section Facts.
Context `{RT : Runtime}.

Lemma parses_reads : forall w n rest, parses (fun n => r_expr (run n) 0) w n rest -> reads_as w n rest.
Proof.
  intros w n rest [k H]. exists k. intros fuel s Hk Ht Hm.
  destruct (H fuel s Hk Ht Hm) as (docs & toks & ep & E & Ht' & _ & _).
  exists (upd s docs toks ep). split; [exact E|]. split; [exact Ht'|reflexivity].
Qed.

Lemma chain_read : forall c t r, written c -> ends_expression t ->
  exists n, Groups codeL codeR c n /\ reads_as (chain_tokens c) n (t :: r).
Proof.
  intros c t r Hw Ht. destruct (chain_parsed c Hw) as (n & G & H). exists n. split; [exact G|].
  apply parses_reads. apply closes_end in Ht. apply H; [left; exact Ht|apply Ht|].
  apply Forall_forall. intros; lia.
Qed.
End Facts.

Scheme Groups_ind2 := Induction for Groups Sort Prop
  with GroupsO_ind2 := Induction for GroupsO Sort Prop.

Lemma join_ops_in : forall c t, In t (ops c) -> In t (chain_tokens c).
Proof.
  induction c as [o|o op c IH]; intros t H; cbn [ops chain_tokens] in *; [destruct H|].
  apply in_app_iff. right. destruct H as [->|H]; [left; reflexivity|right; auto].
Qed.

Lemma Groups_impl : forall (Q : Token -> Prop) (L R L' R' : Token -> Token -> Prop),
  (forall p op, Q p -> Q op -> infix_operator p -> infix_operator op -> L p op -> L' p op) ->
  (forall p op, Q p -> Q op -> infix_operator p -> infix_operator op -> R op p -> R' op p) ->
  forall c n, Groups L R c n -> written c -> Forall Q (chain_tokens c) -> Groups L' R' c n.
Proof.
  intros Q L R L' R' HL HR.
  apply (Groups_ind2 L R
    (fun c n _ => written c -> Forall Q (chain_tokens c) -> Groups L' R' c n)
    (fun o n _ => written_operand o -> Forall Q (operand_tokens o) -> GroupsO L' R' o n)).
  - intros o n _ IH Hw HQ. constructor. auto.
  - intros c op d l r _ IHc _ IHd Hl Hr Hw HQ. apply join_written in Hw as (W1 & W2 & _ & W4).
    rewrite join_tokens in HQ. apply Forall_app in HQ as [Q1 Q2]. inversion Q2 as [|? ? Q3 Q4]; subst.
    pose proof (written_ops _ W1) as O1. pose proof (written_ops _ W4) as O2.
    rewrite Forall_forall in *.
    constructor; [apply IHc; [exact W1|exact Q1]|apply IHd; [exact W4|exact Q4]|
      apply Forall_forall|apply Forall_forall]; intros x Hx.
    + apply HL; auto. apply Q1. now apply join_ops_in.
    + apply HR; auto. apply Q4. now apply join_ops_in.
  - intros. constructor.
  - intros. constructor.
  - intros a c b n _ IH Hw HQ. constructor. cbn [written_operand operand_tokens] in *.
    inversion HQ as [|? ? _ Q2]; subst. apply Forall_app in Q2 as [Q2 _]. apply IH; tauto.
Qed.

(** any grouping of an operand *)
Lemma any_grouping : forall L R o n, GroupsO L R o n -> stands_for o n.
Proof.
  intros L R. apply (GroupsO_ind2 L R
    (fun c n _ => Groups (fun _ _ => True) (fun _ _ => True) c n) (fun o n _ => stands_for o n)).
  - intros. now constructor.
  - intros. constructor; auto; apply Forall_forall; auto.
  - intros. constructor.
  - intros. constructor.
  - intros. now constructor.
Qed.
Lemma one_operand : forall L R o n, Groups L R (One o) n -> stands_for o n.
Proof.
  intros L R o n H. inversion H as [|c ? ? ? ? ? ? ? ? E]; subst; [eapply any_grouping; eassumption|].
  destruct c; discriminate E.
Qed.

Lemma one_op : forall L R a op b n, Groups L R (More a op (One b)) n ->
  exists na nb, Groups L R (One a) na /\ Groups L R (One b) nb /\ n = NBinary na op nb.
Proof.
  intros L R a op b n H. inversion H as [|c1 op' d l r G1 G2 F1 F2 E1 E2].
  destruct c1 as [x|x y [z|z w c1]]; cbn [join] in E1; try discriminate E1.
  injection E1 as -> -> ->. eauto.
Qed.
Lemma two_ops : forall L R a op1 b op2 c n, Groups L R (More a op1 (More b op2 (One c))) n ->
  exists na nb nc, Groups L R (One a) na /\ Groups L R (One b) nb /\ Groups L R (One c) nc /\
  ((R op1 op2 /\ n = NBinary na op1 (NBinary nb op2 nc)) \/
   (L op1 op2 /\ n = NBinary (NBinary na op1 nb) op2 nc)).
Proof.
  intros L R a op1 b op2 c n H. inversion H as [|c1 op' d l r G1 G2 F1 F2 E1 E2].
  destruct c1 as [x|x y [z|z w c1]]; cbn [join] in E1; try discriminate E1.
  - injection E1 as -> -> ->. destruct (one_op _ _ _ _ _ _ G2) as (nb & nc & Gb & Gc & ->).
    cbn [ops] in F2. inversion F2; subst. exists l, nb, nc. tauto.
  - injection E1 as -> -> -> -> ->. destruct (one_op _ _ _ _ _ _ G1) as (na & nb & Ga & Gb & ->).
    cbn [ops] in F1. inversion F1; subst. exists na, nb, r. tauto.
  - injection E1 as -> -> -> -> E1. destruct c1; discriminate E1.
Qed.

(** The parser's powers against the table. *)
Definition level (t : TokenType) : N := match infix_binding_power t with Some (l, _) => l | None => 0 end.
Definition level' (t : TokenType) : N := match infix_binding_power t with Some (_, r) => r | None => 0 end.
Definition prow (t : TokenType) : N := match php_row t with Some (r, _) => r | None => 0 end.
Definition passoc (t : TokenType) : assoc := match php_row t with Some (_, a) => a | None => ANone end.
Definition is_infix (t : TokenType) : bool := match php_row t with Some _ => true | None => false end.
Definition is_concat (t : TokenType) : bool := match t with TConcat => true | _ => false end.
Definition near_concat (t : TokenType) : bool :=
  match t with TPlus | TMinus | TLeftShift | TRightShift => true | _ => false end.
Definition infixes : list TokenType := filter is_infix TokenFacts.all_types.
Definition apart (p q : TokenType) : bool :=
  negb (is_concat p && near_concat q) && negb (is_concat q && near_concat p).

Lemma in_infixes : forall t, infix_operator t -> In (t_type t) infixes.
Proof.
  intros t (r & a & H). apply filter_In. split; [apply TokenFacts.all_types_complete|].
  unfold is_infix. now rewrite H.
Qed.
Lemma table : forallb (fun p => forallb (fun q =>
    implb (apart p q)
      (implb (level q <? level' p) (prow q <=? prow p) &&
       implb (level' q <=? level p) (prow q <=? prow p) &&
       implb (prow q <? prow p) (level q <? level' p) &&
       implb (prow q <? prow p) (level' q <=? level p))) infixes) infixes = true.
Proof. vm_compute. reflexivity. Qed.
Lemma table_assoc : forallb (fun p => forallb (fun q =>
    implb (prow p =? prow q)
      ((implb (match passoc p with ALeft => true | _ => false end)
          (negb (level q <? level' p) && match passoc q with ALeft => true | _ => false end)) &&
       (implb (match passoc p with ARight => true | _ => false end)
          (negb (level' q <=? level p) && match passoc q with ARight => true | _ => false end)))) infixes) infixes = true.
Proof. vm_compute. reflexivity. Qed.

Lemma table_use : forall p q, infix_operator p -> infix_operator q -> apart (t_type p) (t_type q) = true ->
  (codeL p q -> row q <= row p) /\ (codeR q p -> row q <= row p) /\
  (row q < row p -> codeL p q) /\ (row q < row p -> codeR q p).
Proof.
  intros p q Hp Hq Ha. pose proof table as T. rewrite forallb_forall in T.
  specialize (T _ (in_infixes p Hp)). rewrite forallb_forall in T. specialize (T _ (in_infixes q Hq)).
  rewrite Ha in T. cbn [implb] in T. repeat rewrite andb_true_iff in T. destruct T as [[[T1 T2] T3] T4].
  change (prow (t_type p)) with (row p) in *. change (prow (t_type q)) with (row q) in *.
  change (level (t_type p)) with (lb p) in *. change (level (t_type q)) with (lb q) in *.
  change (level' (t_type p)) with (rb p) in *. change (level' (t_type q)) with (rb q) in *.
  unfold codeL, codeR.
  destruct (N.ltb_spec (lb q) (rb p)), (N.leb_spec (rb q) (lb p)), (N.leb_spec (row q) (row p)),
    (N.ltb_spec (row q) (row p)); cbn [implb] in *; try discriminate; repeat split; intros; lia.
Qed.
Lemma assoc_use : forall p q, infix_operator p -> infix_operator q -> row p = row q ->
  (associates p = ALeft -> ~ codeL p q /\ associates q = ALeft) /\
  (associates p = ARight -> ~ codeR q p /\ associates q = ARight).
Proof.
  intros p q Hp Hq Hr. pose proof table_assoc as T. rewrite forallb_forall in T.
  specialize (T _ (in_infixes p Hp)). rewrite forallb_forall in T. specialize (T _ (in_infixes q Hq)).
  change (prow (t_type p)) with (row p) in *. change (prow (t_type q)) with (row q) in *.
  change (level (t_type p)) with (lb p) in *. change (level (t_type q)) with (lb q) in *.
  change (level' (t_type p)) with (rb p) in *. change (level' (t_type q)) with (rb q) in *.
  change (passoc (t_type p)) with (associates p) in *. change (passoc (t_type q)) with (associates q) in *.
  rewrite Hr, N.eqb_refl in T. cbn [implb] in T. rewrite andb_true_iff in T. destruct T as [T1 T2].
  unfold codeL, codeR. split; intros H; rewrite H in *; cbn [implb] in *.
  - apply andb_true_iff in T1 as [T1 T3]. destruct (N.ltb_spec (lb q) (rb p)); [discriminate|].
    split; [lia|]. destruct (associates q); congruence.
  - apply andb_true_iff in T2 as [T1' T3]. destruct (N.leb_spec (rb q) (lb p)); [discriminate|].
    split; [lia|]. destruct (associates q); congruence.
Qed.

Lemma apart_chain : forall c, concat_apart c -> exists Q : Token -> Prop,
  Forall Q (chain_tokens c) /\ forall p q, Q p -> Q q -> apart (t_type p) (t_type q) = true.
Proof.
  intros c [H|H].
  - exists (fun t => t_type t <> TConcat). split; [now apply Forall_forall|].
    intros p q Hp Hq. unfold apart, is_concat.
    assert (F : forall t, t_type t <> TConcat -> match t_type t with TConcat => true | _ => false end = false)
      by (intros t Hn; destruct (t_type t); congruence).
    rewrite (F p Hp), (F q Hq). reflexivity.
  - exists (fun t => ~ In (t_type t) [TPlus; TMinus; TLeftShift; TRightShift]).
    split; [now apply Forall_forall|]. intros p q Hp Hq. unfold apart, near_concat.
    assert (F : forall t, ~ In (t_type t) [TPlus; TMinus; TLeftShift; TRightShift] ->
      match t_type t with TPlus | TMinus | TLeftShift | TRightShift => true | _ => false end = false).
    { intros t Hn. cbn [In] in Hn. destruct (t_type t); try reflexivity; exfalso; apply Hn; tauto. }
    rewrite (F p Hp), (F q Hq), !andb_false_r. reflexivity.
Qed.

(** * C15  Precedence *)

(** Every chain is grouped by precedence, provided that [.] does not meet [+],
    [-], [<<] or [>>]. *)
Theorem C15_precedence_partial : forall (RT : Runtime) c t r,
  written c -> ends_expression t -> concat_apart c ->
  exists n, by_precedence c n /\ reads_as (chain_tokens c) n (t :: r).
Proof.
  intros RT c t r Hw Ht Hc. destruct (chain_read c t r Hw Ht) as (n & G & H). exists n. split; [|exact H].
  destruct (apart_chain c Hc) as (Q & HQ & Hap).
  eapply (Groups_impl Q); [| |exact G|exact Hw|exact HQ];
    intros p op Hp Ho Ip Io; apply table_use; auto.
Qed.

(** Two operators of different rows. *)
Theorem C15_pair_partial : forall (RT : Runtime) a op1 b op2 c t r,
  written (More a op1 (More b op2 (One c))) -> ends_expression t ->
  concat_apart (More a op1 (More b op2 (One c))) -> row op1 <> row op2 ->
  exists na nb nc,
    by_precedence (One a) na /\ by_precedence (One b) nb /\ by_precedence (One c) nc /\
    reads_as (operand_tokens a ++ op1 :: operand_tokens b ++ op2 :: operand_tokens c)
      (if row op2 <? row op1
       then NBinary (NBinary na op1 nb) op2 nc
       else NBinary na op1 (NBinary nb op2 nc)) (t :: r).
Proof.
  intros RT a op1 b op2 c t r Hw Ht Hc Hr.
  destruct (C15_precedence_partial RT _ t r Hw Ht Hc) as (n & G & H).
  cbn [chain_tokens] in H. unfold by_precedence in *.
  destruct (two_ops _ _ _ _ _ _ _ _ G) as (na & nb & nc & Ga & Gb & Gc & [[F ->]|[F ->]]);
  exists na, nb, nc; (split; [exact Ga|]; split; [exact Gb|]; split; [exact Gc|]);
  destruct (N.ltb_spec (row op2) (row op1)); try lia; exact H.
Qed.

(** * What fails *)

Lemma pair_right : forall (RT : Runtime) a op1 b op2 c t r,
  written (More a op1 (More b op2 (One c))) -> ends_expression t -> codeR op1 op2 ->
  exists na nb nc, 
    stands_for a na /\ stands_for b nb /\ stands_for c nc /\
    reads_as (operand_tokens a ++ op1 :: operand_tokens b ++ op2 :: operand_tokens c)
      (NBinary na op1 (NBinary nb op2 nc)) (t :: r).
Proof.
  intros RT a op1 b op2 c t r Hw Ht Hr. destruct (chain_read _ t r Hw Ht) as (n & G & H).
  cbn [chain_tokens] in H.
  destruct (two_ops _ _ _ _ _ _ _ _ G) as (na & nb & nc & Ga & Gb & Gc & [[F ->]|[F ->]]).
  - exists na, nb, nc. eauto 7 using one_operand.
  - exfalso. unfold codeL, codeR in *. lia.
Qed.

(** [$a + $b . $c] is read as [$a + ($b . $c)], and so for [-], [<<] and
    [>>]; since PHP 8 these bind tighter than the dot. *)
Theorem C15_refuted_concat : forall (RT : Runtime) a op dot b c t r,
  written (More a op (More b dot (One c))) -> ends_expression t ->
  In (t_type op) [TPlus; TMinus; TLeftShift; TRightShift] -> t_type dot = TConcat ->
  row dot < row op /\
  exists na nb nc,
    reads_as (operand_tokens a ++ op :: operand_tokens b ++ dot :: operand_tokens c)
      (NBinary na op (NBinary nb dot nc)) (t :: r).
Proof.
  intros RT a op dot b c t r Hw Ht Ho Hd.
  assert (R : row dot < row op /\ codeR op dot).
  { unfold codeR, row, lb, rb. rewrite Hd. cbn [In] in Ho.
    repeat (destruct Ho as [<-|Ho]; [cbn; lia|]). destruct Ho. }
  destruct R as [R1 R2]. split; [exact R1|].
  destruct (pair_right RT a op b dot c t r Hw Ht R2) as (na & nb & nc & _ & _ & _ & H). eauto.
Qed.

(** * C16  Associativity *)

Lemma comb_right : forall c n, Groups codeL codeR c n ->
  (forall p q, In p (ops c) -> In q (ops c) -> ~ codeL p q) -> to_the_right c n.
Proof.
  induction c as [o|o op c IH]; intros n G H.
  - constructor. eapply one_operand; eassumption.
  - inversion G as [|c1 op' d l r G1 G2 F1 F2 E]; subst.
    destruct c1 as [o'|o' p c1]; cbn [join] in E.
    + injection E as <- -> ->. constructor.
      * eapply one_operand; eassumption.
      * apply IH; [exact G2|]. intros. apply H; right; assumption.
    + exfalso. injection E as <- <- E. cbn [ops] in F1. inversion F1 as [|? ? F3 _]; subst.
      apply (H p op'); [left; reflexivity| |exact F3]. right. rewrite join_ops.
      apply in_app_iff. right. left. reflexivity.
Qed.
Lemma comb_left : forall L R c n, Groups L R c n ->
  (forall p q, In p (ops c) -> In q (ops c) -> ~ R p q) -> to_the_left c n.
Proof.
  intros L R. apply (Groups_ind2 L R
    (fun c n _ => (forall p q, In p (ops c) -> In q (ops c) -> ~ R p q) -> to_the_left c n)
    (fun o n _ => True)); auto.
  - intros. constructor. eapply any_grouping; eassumption.
  - intros c op d l r G1 IH1 G2 _ F1 F2 H. destruct d as [o|o p d].
    + constructor.
      * apply IH1. intros. apply H; rewrite join_ops; apply in_app_iff; left; assumption.
      * eapply one_operand; eassumption.
    + exfalso. cbn [ops] in F2. inversion F2 as [|? ? F3 _]; subst. apply (H op p); [| |exact F3];
      rewrite join_ops; apply in_app_iff; right; [left|right; left]; reflexivity.
Qed.

(** The other way round from PHP: a chain of left-associative operators of one
    row is grouped to the right. *)
Theorem C16_left_refuted : forall (RT : Runtime) c t r k,
  written c -> ends_expression t ->
  Forall (fun p => row p = k /\ associates p = ALeft) (ops c) -> (2 <= List.length (ops c))%nat ->
  exists n, reads_as (chain_tokens c) n (t :: r) /\ to_the_right c n /\ ~ by_php c n.
Proof.
  intros RT c t r k Hw Ht Hk Hl. destruct (chain_read c t r Hw Ht) as (n & G & H).
  exists n. split; [exact H|]. pose proof (written_ops _ Hw) as Ho. rewrite Forall_forall in Hk, Ho.
  assert (TR : to_the_right c n).
  { apply comb_right; [exact G|]. intros p q Hp Hq. destruct (Hk p Hp) as [K1 K2]. destruct (Hk q Hq) as [K3 _].
    apply (assoc_use p q); auto. congruence. }
  split; [exact TR|]. intros B. apply comb_left in B.
  - destruct c as [o|o op [o'|o' op' c]]; cbn [ops List.length] in Hl; try lia.
    inversion TR as [|? ? ? n1 m1 HO HR]; subst. inversion B as [|o2 op2 c2 n2 m2 HB HO2 E]; subst.
    destruct c2 as [o3|o3 p3 c2]; [discriminate|]. 
    inversion HB as [|o4 op4 c4 n4 m4 HB4 HO4 E4]; subst.
    inversion HO; subst; discriminate.
  - intros p q Hp Hq [Hx|[_ Hx]]; destruct (Hk p Hp) as [K1 K2]; destruct (Hk q Hq) as [K3 K4]; [lia|congruence].
Qed.

(** And a chain of right-associative ones (assignments, [**], [??]) to the
    left. *)
Theorem C16_right_refuted : forall (RT : Runtime) c t r k,
  written c -> ends_expression t ->
  Forall (fun p => row p = k /\ associates p = ARight) (ops c) -> (2 <= List.length (ops c))%nat ->
  exists n, reads_as (chain_tokens c) n (t :: r) /\ to_the_left c n /\ ~ by_php c n.
Proof.
  intros RT c t r k Hw Ht Hk Hl. destruct (chain_read c t r Hw Ht) as (n & G & H).
  exists n. split; [exact H|]. pose proof (written_ops _ Hw) as Ho. rewrite Forall_forall in Hk, Ho.
  assert (TL : to_the_left c n).
  { apply (comb_left codeL codeR); [exact G|]. intros p q Hp Hq. destruct (Hk p Hp) as [K1 _]. destruct (Hk q Hq) as [K2 K3].
    apply (assoc_use q p); auto. congruence. }
  split; [exact TL|]. intros B.
  destruct c as [o|o op [o'|o' op' c]]; cbn [ops List.length] in Hl; try lia.
  inversion B as [|c1 op1 d l r0 G1 G2 F1 F2 E1 E2]; subst.
  destruct c1 as [o1|o1 p1 c1].
  - cbn [join] in E1. injection E1 as -> -> ->.
    inversion TL as [|o2 op2 c2 n2 m2 HT HO E3]; subst.
    destruct c2 as [o3|o3 p3 c2]; [discriminate|].
    inversion HT as [|o4 op4 c4 n4 m4 HB4 HO4 E4]; subst.
    inversion G1 as [o6 n6 G6 E6|c3 op3 d3 l3 r3 ? ? ? ? E7 E8]; subst; [inversion G6|destruct c3; discriminate E7].
  - cbn [join] in E1. injection E1 as -> -> E1. cbn [ops] in F1. inversion F1 as [|? ? F3 _]; subst.
    assert (I1 : In op (ops (More o op (More o' op' c)))) by (left; reflexivity).
    assert (I2 : In op1 (ops (More o op (More o' op' c)))).
    { cbn [ops]. right. change (op' :: ops c) with (ops (More o' op' c)). rewrite <- E1, join_ops.
      apply in_app_iff. right. left. reflexivity. }
    destruct (Hk _ I1) as [K1 K2], (Hk _ I2) as [K3 K4]. destruct F3 as [F3|[_ F3]]; [lia|congruence].
Qed.

(** * C17  Unary minus and plus *)

Lemma prefix_chain : forall (RT : Runtime) u q c t r, measured u -> prefix_binding_power (t_type u) = Some q ->
  written c -> ends_expression t -> Forall (fun p => q <= lb p) (ops c) ->
  exists n, Groups codeL codeR c n /\ reads_as (u :: chain_tokens c) (NUnary n u) (t :: r).
Proof.
  intros RT u q c t r Hm Hq Hw Ht HF. destruct (chain_parsed c Hw) as (n & G & H). exists n. split; [exact G|].
  apply parses_reads. apply closes_end in Ht. apply parses_expr. unfold expression_body.
  assert (Hp : ParserBase.plain u = true) by (unfold ParserBase.plain, prefix_binding_power in *; destruct (t_type u); try discriminate Hq; reflexivity).
  eapply parses_bind0; [apply (parses_peek u (chain_tokens c ++ t :: r)); exact Hp|]. cbn beta iota. rewrite Hq.
  eapply parses_bind1.
  - eapply parses_bindt; [apply parses_next_unwrap; assumption|]. cbn beta.
    eapply parses_bind1; [apply H; [left; exact Ht|apply Ht|exact HF]|]. apply parses_ret.
  - cbn beta. apply parses_operator_loop. apply loop_done, round_stops. left; exact Ht.
Qed.

Lemma prefix_operand : forall (RT : Runtime) u q a op b t r, measured u -> prefix_binding_power (t_type u) = Some q ->
  written (More a op (One b)) -> ends_expression t -> lb op < q ->
  exists na nb, stands_for a na /\ stands_for b nb /\
    reads_as (u :: operand_tokens a ++ op :: operand_tokens b) (NBinary (NUnary na u) op nb) (t :: r).
Proof.
  intros RT u q a op b t r Hm Hq Hw Ht Hl. cbn [written] in Hw. destruct Hw as (Wa & Wo & Wm & Wb).
  destruct (chain_parsed (One a) Wa) as (na & Ga & Ha). destruct (chain_parsed (One b) Wb) as (nb & Gb & Hb).
  assert (U := one_operand codeL codeR).
  exists na, nb. split; [auto|]. split; [auto|].
  apply parses_reads. apply closes_end in Ht. apply parses_expr. unfold expression_body.
  assert (Hp : ParserBase.plain u = true) by (unfold ParserBase.plain, prefix_binding_power in *; destruct (t_type u); try discriminate Hq; reflexivity).
  eapply parses_bind0; [apply (parses_peek u ((operand_tokens a ++ op :: operand_tokens b) ++ t :: r)); exact Hp|]. cbn beta iota. rewrite Hq.
  change (u :: operand_tokens a ++ op :: operand_tokens b) with ((u :: operand_tokens a) ++ (op :: operand_tokens b)).
  eapply parses_bind.
  - eapply parses_bindt; [apply parses_next_unwrap; assumption|]. cbn beta.
    eapply parses_bind1; [apply (Ha q op (operand_tokens b ++ t :: r)); [right; split; [exact Wo|exact Hl]|now apply halts_op|constructor]|]. apply parses_ret.
  - cbn beta. apply parses_operator_loop.
    rewrite <- (app_nil_r (op :: operand_tokens b)).
    eapply loop_more; [|apply loop_done, round_stops; left; exact Ht].
    apply round_operator; auto; [lia|]. cbn [app]. apply Hb; [left; exact Ht|apply Ht|constructor].
Qed.

(** [-a + b] is read as [-(a + b)], and so for every arithmetic operator. *)
Theorem C17_refuted : forall (RT : Runtime) u a op b t r,
  In (t_type u) [TPlus; TMinus] -> measured u ->
  In (t_type op) [TPlus; TMinus; TMultiplication; TDivision; TModulo; TConcat] ->
  written (More a op (One b)) -> ends_expression t ->
  exists na nb, stands_for a na /\ stands_for b nb /\
    reads_as (u :: operand_tokens a ++ op :: operand_tokens b) (NUnary (NBinary na op nb) u) (t :: r).
Proof.
  intros RT u a op b t r Hu Hm Ho Hw Ht.
  assert (Hq : prefix_binding_power (t_type u) = Some 140) by (cbn [In] in Hu; destruct Hu as [<-|[<-|[]]]; reflexivity).
  destruct (prefix_chain RT u 140 (More a op (One b)) t r Hm Hq Hw Ht) as (n & G & H).
  { cbn [ops]. constructor; [|constructor]. unfold lb. cbn [In] in Ho.
    repeat (destruct Ho as [<-|Ho]; [cbn; lia|]). destruct Ho. }
  destruct (one_op _ _ _ _ _ _ G) as (na & nb & Ga & Gb & ->). eauto 7 using one_operand.
Qed.

(** For the operators that bind weaker than [.] the sign stays with its
    operand, and [**] is inside the sign, as in PHP. *)
Theorem C17_weaker_partial : forall (RT : Runtime) u a op b t r,
  In (t_type u) [TPlus; TMinus] -> measured u -> row op < 15 (* the row of + *) -> t_type op <> TConcat ->
  written (More a op (One b)) -> ends_expression t ->
  exists na nb, stands_for a na /\ stands_for b nb /\
    reads_as (u :: operand_tokens a ++ op :: operand_tokens b) (NBinary (NUnary na u) op nb) (t :: r).
Proof.
  intros RT u a op b t r Hu Hm Hr Hc Hw Ht.
  assert (Hq : prefix_binding_power (t_type u) = Some 140) by (cbn [In] in Hu; destruct Hu as [<-|[<-|[]]]; reflexivity).
  apply (prefix_operand RT u 140); auto.
  assert (Hi : infix_operator op) by (cbn [written] in Hw; tauto). destruct Hi as (rr & aa & Hi).
  unfold row, lb in *. cbn [t_type php_row] in Hr. unfold php_row in Hi, Hr.
  destruct (t_type op); try discriminate Hi; cbn in Hr |- *; try lia; contradiction.
Qed.
Theorem C17_power_partial : forall (RT : Runtime) u a op b t r,
  In (t_type u) [TPlus; TMinus] -> measured u -> t_type op = TPower ->
  written (More a op (One b)) -> ends_expression t ->
  exists na nb, 
    reads_as (u :: operand_tokens a ++ op :: operand_tokens b) (NUnary (NBinary na op nb) u) (t :: r).
Proof.
  intros RT u a op b t r Hu Hm Ho Hw Ht.
  assert (Hq : prefix_binding_power (t_type u) = Some 140) by (cbn [In] in Hu; destruct Hu as [<-|[<-|[]]]; reflexivity).
  destruct (prefix_chain RT u 140 (More a op (One b)) t r Hm Hq Hw Ht) as (n & G & H).
  { cbn [ops]. constructor; [|constructor]. unfold lb. rewrite Ho. cbn. lia. }
  destruct (one_op _ _ _ _ _ _ G) as (na & nb & Ga & Gb & ->). eauto 7 using one_operand.
Qed.

(** * C40  The other prefix operators *)

Definition tight_prefix (t : TokenType) : Prop :=
  In t [TNegation; TBitwiseNegation; TSilencer; TBoolCast; TIntCast; TStringCast; TArrayCast;
        TObjectCast; TDoubleCast; TUnsetCast].

(** Casts, [!], [~] and [@] belong to their operand, whatever infix operator
    other than [**] follows; that one is inside. *)
Theorem C40_prefix_partial : forall (RT : Runtime) u a op b t r,
  tight_prefix (t_type u) -> measured u -> ~ (t_type u = TNegation /\ t_type op = TInstanceOf) ->
  written (More a op (One b)) -> ends_expression t ->
  exists na nb, stands_for a na /\ stands_for b nb /\
    reads_as (u :: operand_tokens a ++ op :: operand_tokens b)
      (match t_type op with
       | TPower => NUnary (NBinary na op nb) u
       | _ => NBinary (NUnary na u) op nb
       end) (t :: r).
Proof.
  intros RT u a op b t r Hu Hm _ Hw Ht.
  assert (Hq : prefix_binding_power (t_type u) = Some 181).
  { unfold tight_prefix in Hu. cbn [In] in Hu. repeat (destruct Hu as [<-|Hu]; [reflexivity|]). destruct Hu. }
  assert (Hi : infix_operator op) by (cbn [written] in Hw; tauto). destruct Hi as (rr & aa & Hi).
  assert (D : t_type op = TPower \/ lb op < 181).
  { unfold lb. unfold php_row in Hi. destruct (t_type op); try discriminate Hi; try (left; reflexivity); right; cbn; lia. }
  destruct D as [D|D].
  - rewrite D. destruct (prefix_chain RT u 181 (More a op (One b)) t r Hm Hq Hw Ht) as (n & G & H).
    { cbn [ops]. constructor; [|constructor]. unfold lb. rewrite D. cbn. lia. }
    destruct (one_op _ _ _ _ _ _ G) as (na & nb & Ga & Gb & ->). eauto 7 using one_operand.
  - destruct (prefix_operand RT u 181 a op b t r Hm Hq Hw Ht D) as (na & nb & Ga & Gb & H).
    exists na, nb. split; [auto|]. split; [auto|].
    assert (Hn : t_type op <> TPower) by (intros E; unfold lb in D; rewrite E in D; cbn in D; lia).
    destruct (t_type op); try exact H. contradiction.
Qed.

(** [!$a instanceof $b] is read as [(!$a) instanceof $b]; in PHP it is
    [!($a instanceof $b)]. *)
Theorem C40_refuted_negation : forall (RT : Runtime) u a op b t r,
  t_type u = TNegation -> measured u -> t_type op = TInstanceOf ->
  written (More a op (One b)) -> ends_expression t ->
  exists na nb, stands_for a na /\ stands_for b nb /\
    reads_as (u :: operand_tokens a ++ op :: operand_tokens b) (NBinary (NUnary na u) op nb) (t :: r).
Proof.
  intros RT u a op b t r Hu Hm Ho Hw Ht. apply (prefix_operand RT u 181); auto.
  - now rewrite Hu.
  - unfold lb. rewrite Ho. reflexivity.
Qed.

(** * The spellings [and] and [or] *)

Local Existing Instance ascii_runtime.
Local Open Scope string_scope.

Definition scanned (s : str) : list Token := match scan s with SOk ts => ts | _ => [] end.
Definition first_statement (s : str) : option Node :=
  match ast 100 (scanned s) with POk (n :: _, []) _ => Some n | _ => None end.

(** [$a = $b and $c;] assigns [$b] in PHP; the parser assigns [$b and $c]. *)
Theorem C15_refuted_and :
  exists a eq b andt c,
    first_statement (lit "<?php $a = $b and $c;") =
      Some (NExpressionStatement (NBinary (NVariable a) eq (NBinary (NVariable b) andt (NVariable c)))) /\
    t_type eq = TAssignment.
Proof. do 5 eexists. split; [vm_compute; reflexivity|reflexivity]. Qed.
Theorem C15_refuted_or :
  exists a eq b ort c,
    first_statement (lit "<?php $a = $b or $c;") =
      Some (NExpressionStatement (NBinary (NVariable a) eq (NBinary (NVariable b) ort (NVariable c)))) /\
    t_type eq = TAssignment.
Proof. do 5 eexists. split; [vm_compute; reflexivity|reflexivity]. Qed.

(** * The hypotheses can be met *)

Definition at_ (ts : list Token) (i : nat) : Token := nth i ts (mkToken 0 0 TEof None None).

(** [$a + 1 * ($b - 2) < $c;] *)
Definition ex : list Token := scanned (lit "<?php $a + 1 * ($b - 2) < $c;").
Definition ex_chain : chain :=
  More (Var (at_ ex 1)) (at_ ex 2)
    (More (Lit (at_ ex 3)) (at_ ex 4)
      (More (Paren (at_ ex 5) (More (Var (at_ ex 6)) (at_ ex 7) (One (Lit (at_ ex 8)))) (at_ ex 9)) (at_ ex 10)
        (One (Var (at_ ex 11))))).
Example ex_chain_ok :
  written ex_chain /\ ends_expression (at_ ex 12) /\ concat_apart ex_chain /\
  ex = at_ ex 0 :: chain_tokens ex_chain ++ [at_ ex 12; at_ ex 13].
Proof.
  split; [|split; [|split]].
  - vm_compute. repeat split; try (do 2 eexists; reflexivity); try (eexists; reflexivity); discriminate.
  - vm_compute. tauto.
  - left. intros t H. vm_compute in H. repeat (destruct H as [<-|H]; [discriminate|]). destruct H.
  - vm_compute. reflexivity.
Qed.

(** [$a - $b - $c;] and [$a = $b = $c;] *)
Definition ex2 : list Token := scanned (lit "<?php $a - $b - $c;").
Definition ex3 : list Token := scanned (lit "<?php $a = $b = $c;").
Definition three (l : list Token) : chain :=
  More (Var (at_ l 1)) (at_ l 2) (More (Var (at_ l 3)) (at_ l 4) (One (Var (at_ l 5)))).
Example ex_assoc_ok :
  written (three ex2) /\ Forall (fun p => row p = 15 /\ associates p = ALeft) (ops (three ex2)) /\
  written (three ex3) /\ Forall (fun p => row p = 3 /\ associates p = ARight) (ops (three ex3)) /\
  ends_expression (at_ ex2 6) /\ ends_expression (at_ ex3 6).
Proof.
  repeat split; try (vm_compute; tauto); try (vm_compute; do 2 eexists; reflexivity);
    try (vm_compute; eexists; reflexivity); try (vm_compute; discriminate);
    repeat constructor; reflexivity.
Qed.

(** [-$a + $b;] and [!$a instanceof $b;] *)
Definition ex4 : list Token := scanned (lit "<?php -$a + $b;").
Definition ex5 : list Token := scanned (lit "<?php !$a instanceof $b;").
Example ex_prefix_ok :
  t_type (at_ ex4 1) = TMinus /\ measured (at_ ex4 1) /\ t_type (at_ ex4 3) = TPlus /\
  written (More (Var (at_ ex4 2)) (at_ ex4 3) (One (Var (at_ ex4 4)))) /\ ends_expression (at_ ex4 5) /\
  t_type (at_ ex5 1) = TNegation /\ measured (at_ ex5 1) /\ t_type (at_ ex5 3) = TInstanceOf /\
  written (More (Var (at_ ex5 2)) (at_ ex5 3) (One (Var (at_ ex5 4)))) /\ ends_expression (at_ ex5 5).
Proof.
  repeat split; try (vm_compute; tauto); try (vm_compute; do 2 eexists; reflexivity);
    try (vm_compute; eexists; reflexivity); try (vm_compute; discriminate); reflexivity.
Qed.

Print Assumptions C15_precedence_partial.
Print Assumptions C15_pair_partial.
Print Assumptions C15_refuted_concat.
Print Assumptions C15_refuted_and.
Print Assumptions C15_refuted_or.
Print Assumptions C16_left_refuted.
Print Assumptions C16_right_refuted.
Print Assumptions C17_refuted.
Print Assumptions C17_weaker_partial.
Print Assumptions C17_power_partial.
Print Assumptions C40_prefix_partial.
Print Assumptions C40_refuted_negation.
