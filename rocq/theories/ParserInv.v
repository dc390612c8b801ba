(** The invariant of ParserBase.v holds for every function of the grammar:
    the parser does not panic, takes its tokens from the input and builds
    well-made trees. *)

From Verif Require Import Base Token Node DocBlock Parser TokenFacts DocFacts ParserSpec ParserBase.

Section Grammar.
Context `{RT : Runtime}.
Variable T : Token -> Prop.
Variable eof : N * N.
Variable W : Prop.
Hypothesis T_end : forall t, T t -> W \/ exists e, token_end t = Some e.
Hypothesis T_doc : forall t, T t -> t_type t = TMultilineComment -> W \/ t_label t <> None.

Local Notation VOK := (vok T eof).
Local Notation tokok := (tok_ok T eof).
Local Notation errok := (err_ok T eof).
Local Notation TT := (TT T eof W).

(** A list that is not empty *)
Definition neV (E : Prop) (l : list Node) : Prop := VOK E l /\ l <> [].
Definition neVt (E : Prop) (l : list Token) : Prop := VOK E l /\ l <> [].
Lemma mono_neV : mono neV.
Proof. intros E E' l HE [H1 H2]. split; auto. eapply vok_mono; eauto. Qed.
Lemma mono_neVt : mono neVt.
Proof. intros E E' l HE [H1 H2]. split; auto. eapply vok_mono; eauto. Qed.
Definition oneV (E : Prop) (l : option (list Node)) : Prop := match l with Some l => neV E l | None => True end.

(** ** Primitives, with plain results *)

Lemma P_or_ignore : forall (E : Prop) (Pre : pst -> Prop) t, TT E Pre (consume_or_ignore t) VOK anyR.
Proof.
  intros. eapply TT_weak; [apply TT_or_ignore; auto| |auto]. intros E1 [u|] _ Hu; [|exact I]. left. apply Hu.
Qed.
Lemma P_one_of_or_ignore : forall (E : Prop) (Pre : pst -> Prop) l, TT E Pre (consume_one_of_or_ignore l) VOK anyR.
Proof.
  intros. eapply TT_weak; [apply TT_one_of_or_ignore; auto| |auto]. intros E1 [u|] _ Hu; [|exact I]. left. apply Hu.
Qed.
Lemma P_consume : forall (E : Prop) (Pre : pst -> Prop) t, TT E Pre (consume t) VOK anyR.
Proof.
  intros. eapply TT_weak; [apply TT_consume; auto| |auto]. intros E1 u _ Hu. eapply wanted_ok; eauto.
Qed.
Lemma P_one_of : forall (E : Prop) (Pre : pst -> Prop) t, TT E Pre (consume_one_of t) VOK anyR.
Proof. intros. eapply TT_weak; [apply TT_one_of; auto| |auto]. intros E1 u _ Hu. left; auto. Qed.
Lemma P_or_ff_before : forall (E : Prop) (Pre : pst -> Prop) t l, TT E Pre (consume_or_ff_before t l) VOK anyR.
Proof. intros. eapply TT_weak; [apply TT_or_ff_before; auto| |auto]. intros E1 u _ Hu. left; auto. Qed.
Lemma P_next : forall (E : Prop) (Pre : pst -> Prop), TT E Pre next VOK anyR.
Proof. intros. eapply TT_weak; [apply TT_next; auto| |auto]. intros E1 [u|] _ Hu; [left; auto|exact I]. Qed.

Lemma good_ : forall (E : Prop) n, Good T eof E n -> VOK E n.
Proof. auto. Qed.

Lemma Forall_cases : forall (E : Prop) (l : list (option Node)), VOK E l -> Forall (VOK E) (flat_map opt_list l).
Proof.
  intros E l Hl. induction Hl as [|o l Ho Hl IH]; cbn; auto. apply Forall_app. split; auto.
  apply (Forall_optlist T eof Node E o Ho).
Qed.
Lemma optlist_tok : forall (E : Prop) (o : option Token), VOK E o -> Forall (tokok E) (opt_list o).
Proof. intros E o Ho. apply (Forall_optlist T eof Token E o Ho). Qed.
Lemma optlist_node : forall (E : Prop) (o : option Node), VOK E o -> Forall (VOK E) (opt_list o).
Proof. intros E o Ho. apply (Forall_optlist T eof Node E o Ho). Qed.
Lemma Forall_usetrait : forall (E : Prop) l, VOK E l -> VOK E (map (fun t => NUseTrait t) l).
Proof.
  intros E l Hl. induction Hl as [|o l Ho Hl IH]; cbn; constructor; auto.
  apply mkGood; cbn; auto. discriminate.
Qed.

Lemma ok_end : forall (E : Prop) t, VOK E t ->
  err_tok T eof t /\ ((token_end t = None /\ W) \/ exists pos, token_end t = Some pos /\ placeholder T eof (token_missing pos)).
Proof.
  intros E t [Ht|[_ Ht]].
  - split; [left; auto|]. destruct (token_end t) as [[c l]|] eqn:He.
    2: { left. destruct (T_end t Ht) as [w|[e He']]; [auto|congruence]. }
    right. exists (c, l). split; auto.
    split; [reflexivity|split; [reflexivity|]]. left. exists t. auto.
  - split; [right; auto|]. destruct t as [c l ty lb md]. destruct Ht as (H1 & H2 & H3). cbn in *. subst.
    right. exists (c, l). unfold token_end. cbn. rewrite N.add_0_r. split; auto. split; [reflexivity|split; [reflexivity|]].
    exact H3.
Qed.

(** Behind the start of a heredoc there is another token. *)
Lemma P_heredoc : forall (E : Prop) t, T t -> THereDocStart = t_type t ->
  TT E (Head t) (consume_or_ff_after THereDocStart [THereDocStart] ;;;
                 string <- next_unwrap ;;
                 consume_or_ff_after THereDocEnd [THereDocEnd] ;;;
                 ret (NLiteral string)) VOK anyR.
Proof.
  intros E t Ht Hty s HI HE Hs.
  pose proof Hs as [Hp [r Hr]]. destruct HI as [H1 H2 H3 H4 H5 H6].
  assert (Hh : W \/ existsb (fun u => negb (comment_or_break u)) r = true).
  { rewrite Hr in H2. destruct H2 as [H2 _]. apply H2. auto. }
  unfold bind at 1. unfold consume_or_ff_after at 1. unfold bind at 1. rewrite (peek_head t s Hs).
  rewrite <- Hty, tt_eqb_refl. unfold bind at 1. unfold next at 1.
  destruct (next_go_spec T eof W T_end (p_toks s) (p_docs s) (p_eprev s)) as [[-> w]|(o & toks' & docs' & ep' & -> & K1 & K2 & K3 & K4 & K5 & K6 & _)]; auto.
  destruct (K6 t r Hr (plain_not_comment t Hp)) as [-> ->]. unfold ret at 1.
  unfold bind at 1. unfold next_unwrap, bind at 1, next at 1. cbn [p_toks p_docs p_eprev p_errs p_ctx p_eof].
  destruct (next_go_spec T eof W T_end r docs' ep') as [[-> w]|(o & toks'' & docs'' & ep'' & -> & L1 & L2 & L3 & L4 & L5 & _ & L6)]; auto.
  destruct o as [u|]; [|destruct Hh as [w|Hh]; [exact w|now contradiction L6]]. unfold ret at 1.
  match goal with |- match ?m ?st with _ => _ end =>
    assert (G : TT (er s) any m VOK anyR) end.
  { eapply TT_bind; [apply TT_or_ff_after; assumption|]. intros E1 [] HE1 _. apply TT_retv.
    apply good_, mkGood; cbn; auto; [|discriminate]. constructor; [left; assumption|constructor]. }
  match goal with |- match ?m ?st with _ => _ end => specialize (G st) end.
  apply G; [constructor; auto| |exact I]. auto.
Qed.

Lemma last_opt_some : forall A (l : list A), l <> [] -> last_opt l <> None.
Proof.
  intros A l Hl Hn. unfold last_opt in Hn. destruct (rev l) eqn:Er; [|discriminate].
  apply Hl. rewrite <- (rev_involutive l), Er. reflexivity.
Qed.

(** ** Tactics *)

Ltac lift HE :=
  match type of HE with
  | ?E -> ?E' =>
      repeat match goal with
             | H : vok T eof E ?x |- _ => apply (vok_mono T eof E E' x HE) in H
             | H : E |- _ => apply HE in H
             end
  end.

Ltac ne := solve [ assumption | discriminate
                 | let H := fresh in intros H; apply app_eq_nil in H as [? ?]; discriminate ].

Ltac fa :=
  repeat match goal with
         | |- Forall _ (_ ++ _) => apply Forall_app; split
         | |- Forall _ (_ :: _) => constructor
         | |- Forall _ [] => constructor
         | |- Forall _ (opt_nodes (Some ?l)) => change (opt_nodes (Some l)) with l
         | |- Forall _ (opt_nodes None) => constructor
         | |- Forall _ (opt_list (Some ?l)) => change (opt_list (Some l)) with [l]
         | |- Forall _ (opt_list None) => constructor
         end.

Ltac leaf :=
  first [ assumption
        | exact I
        | apply optlist_tok; assumption
        | apply optlist_node; assumption
        | apply Forall_optnodes; assumption
        | apply Forall_cases; assumption
        | apply Forall_usetrait; assumption
        | apply optlist_node, param_comment_ok; assumption ].

Ltac vk :=
  cbv zeta; cbn [fst snd];
  lazymatch goal with
  | |- neV _ _ => split; [vk | ne]
  | |- neVt _ _ => split; [vk | ne]
  | |- _ /\ _ => split; vk
  | |- oneV _ (Some _) => split; [vk | ne]
  | |- oneV _ None => exact I
  | |- vok T eof _ (Some ?x) => first [assumption | refine (_ : vok T eof _ x); vk]
  | |- vok T eof _ None => exact I
  | |- vok T eof _ tt => exact I
  | |- vok T eof _ (inl ?x) => refine (_ : vok T eof _ x); vk
  | |- vok T eof _ (inr ?x) => refine (_ : vok T eof _ x); vk
  | |- vok T eof _ (_, _) => split; vk
  | |- Forall _ _ => first [leaf | progress fa; vk]
  | |- vok (A := list _) T eof ?E ?l =>
      first [ leaf | refine (_ : Forall (vok T eof E) l); progress fa; vk ]
  | |- _ => first [ leaf | apply good_, mkGood; [cbn [own_toks kind tref_one]; vk | cbn [shape kind tref_one]; first [exact I | ne] | first [discriminate | intros; assumption] | cbn [subnodes]; vk ] ]
  end.

Ltac prim :=
  lazymatch goal with
  | |- ParserBase.TT _ _ _ _ _ (consume _) _ _ => apply P_consume; assumption
  | |- ParserBase.TT _ _ _ _ _ (consume_or_ignore _) _ _ => apply P_or_ignore; assumption
  | |- ParserBase.TT _ _ _ _ _ (consume_or_ff_after _ _) _ _ => apply TT_or_ff_after; assumption
  | |- ParserBase.TT _ _ _ _ _ (next_token_one_of _) _ _ => apply TT_next_one_of; assumption
  | |- ParserBase.TT _ _ _ _ _ (consume_identifier) _ _ => apply TT_identifier; assumption
  | |- ParserBase.TT _ _ _ _ _ (consume_one_of_or_ignore _) _ _ => apply P_one_of_or_ignore; assumption
  | |- ParserBase.TT _ _ _ _ _ (consume_one_of _) _ _ => apply P_one_of; assumption
  | |- ParserBase.TT _ _ _ _ _ (consume_or_ff_before _ _) _ _ => apply P_or_ff_before; assumption
  | |- ParserBase.TT _ _ _ _ _ (next) _ _ => apply P_next; assumption
  | |- ParserBase.TT _ _ _ _ _ (peek) _ _ => apply TT_peek; assumption
  | |- ParserBase.TT _ _ _ _ _ (consume_end_of_statement) _ _ => apply TT_end_of_statement; assumption
  | |- ParserBase.TT _ _ _ _ _ (consume_optional_doc_comment) _ _ => apply TT_opt_doc; assumption
  | |- ParserBase.TT _ _ _ _ _ (flush_docs) _ _ => apply TT_flush; assumption
  | |- ParserBase.TT _ _ _ _ _ (error_fast_forward) _ _ => apply TT_ff; assumption
  | |- ParserBase.TT _ _ _ _ _ (consume_member) _ _ => apply TT_member; assumption
  | |- ParserBase.TT _ _ _ _ _ (next_is_member) _ _ => apply TT_next_is_member; assumption
  | |- ParserBase.TT _ _ _ _ _ (next_is_operator) _ _ => apply TT_next_is_operator; assumption
  | |- ParserBase.TT _ _ _ _ _ (set_ctx _) _ _ => apply TT_set_ctx; assumption
  | |- ParserBase.TT _ _ _ _ _ (get_ctx) _ _ => apply TT_get_ctx; assumption
  end.

Variable rec : Rec.
Hypothesis H_expr : forall (E : Prop) (Pre : pst -> Prop) bp, TT E Pre (r_expr rec bp) VOK anyR.
Hypothesis H_call : forall (E : Prop) (Pre : pst -> Prop), TT E Pre (r_call rec) VOK anyR.
Hypothesis H_stmt : forall (E : Prop) (Pre : pst -> Prop), TT E Pre (r_stmt rec) VOK anyR.
Hypothesis H_block : forall (E : Prop) (Pre : pst -> Prop), TT E Pre (r_block rec) VOK anyR.
Variable n : nat.

Create HintDb tt discriminated.
Hint Constants Opaque : tt.
Hint Resolve H_expr H_call H_stmt H_block : tt.
Hint Extern 1 (vok _ _ _ _) => vk : tt.

Ltac gram := solve [ auto with tt ].

Ltac intro_resn a :=
  let E' := fresh "E" in let HE := fresh "HE" in let Ha := fresh "Ha" in
  intros E' a HE Ha; cbv beta in HE, Ha; lift HE;
  try match type of Ha with neV _ _ => let H := fresh "Hne" in destruct Ha as [Ha H] end;
  try match type of Ha with neVt _ _ => let H := fresh "Hne" in destruct Ha as [Ha H] end.
Ltac intro_resp a := intro_resn a;
  repeat match goal with
         | H : vok T eof _ ?x |- _ =>
             is_var x;
             match type of x with
             | prod _ _ =>
                 let a1 := fresh "x" in let a2 := fresh "y" in let H1 := fresh "Hx" in let H2 := fresh "Hy" in
                 destruct x as [a1 a2]; destruct H as [H1 H2]; cbn [fst snd] in H1, H2; cbn [fst snd]
             end
         end.
Ltac intro_res := let a := fresh "a" in intro_resp a.

(** one bind whose first part has a lemma *)
Ltac step := eapply TT_bind; [ first [prim | gram] | intro_res ].
Tactic Notation "stepn" ident(a) := eapply TT_bind; [ first [prim | gram] | intro_resn a ].

(** one bind with a given specification of the first part *)
Ltac bindw Q := eapply (TT_bind T eof W _ _ _ _ _ _ Q anyR); [ | intro_res ].

Ltac fin :=
  match goal with
  | |- ParserBase.TT _ _ _ _ _ (ret _) _ _ =>
      apply TT_ret; [let E' := fresh "E" in let HE := fresh "HE" in intros E' HE; cbv beta; lift HE; vk | intros ? ?; exact I]
  | |- ParserBase.TT _ _ _ _ _ (continue _) _ _ =>
      apply TT_ret; [let E' := fresh "E" in let HE := fresh "HE" in intros E' HE; cbv beta; lift HE; vk | intros ? ?; exact I]
  | |- ParserBase.TT _ _ _ _ _ (break _) _ _ =>
      apply TT_ret; [let E' := fresh "E" in let HE := fresh "HE" in intros E' HE; cbv beta; lift HE; vk | intros ? ?; exact I]
  | |- ParserBase.TT _ _ _ _ _ (fail _) _ _ => apply TT_fail; first [exact I | left; assumption | match goal with H : vok T eof ?E (Some ?t) |- _ => exact (proj1 (ok_end E t H)) end]
  end.

Ltac loopJ J Q M :=
  eapply (TT_ploop T eof W _ _ J Q); [ exact M | vk | intro_res ].
Ltac loopv :=
  lazymatch goal with
  | |- ParserBase.TT _ _ _ _ _ (@ploop ?A ?B _ _ _) _ _ =>
      eapply (TT_ploop T eof W A B (vok (A := A) T eof) (vok (A := B) T eof)); [ apply mono_vok | vk | intro_res ]
  end.
Ltac bindv :=
  lazymatch goal with
  | |- ParserBase.TT _ _ _ _ _ (@bind ?A ?B _ _) _ _ =>
      eapply (TT_bind T eof W A B _ _ _ _ (vok (A := A) T eof) anyR); [ | intro_res ]
  end.

Ltac go1 :=
  cbv zeta;
  lazymatch goal with
  | |- ParserBase.TT _ _ _ _ _ (bind (ploop _ _ _) _) _ _ => fail
  | |- ParserBase.TT _ _ _ _ _ (bind (match _ with _ => _ end) _) _ _ => bindv
  | |- ParserBase.TT _ _ _ _ _ (bind _ _) _ _ => step
  | |- ParserBase.TT _ _ _ _ _ (match ?x with _ => _ end) _ _ => destruct x
  | |- ParserBase.TT _ _ _ _ _ (ploop _ _ _) _ _ => fail
  | |- _ => first [prim | gram | fin]
  end.
Ltac go := repeat go1.
(** the same, with [VOK] as the invariant of every loop *)
Ltac gol1 :=
  cbv zeta;
  lazymatch goal with
  | |- ParserBase.TT _ _ _ _ _ (bind (ploop _ _ _) _) _ _ => bindv
  | |- ParserBase.TT _ _ _ _ _ (ploop _ _ _) _ _ => loopv
  | |- ParserBase.TT _ _ _ _ _ (bind (pcatch _) _) _ _ => eapply TT_bind; [eapply TT_pcatchv; gram | intro_res]
  | |- _ => go1
  end.
Ltac gol := repeat gol1.
Ltac loopne := loopJ neV neV mono_neV.

(** take the token that [peek] has shown *)
Ltac take_ t :=
  let Ht := fresh "HT" in assert (Ht : T t) by assumption;
  eapply TT_bind; [apply (TT_next_head T eof W T_end _ t Ht)|];
  let E' := fresh "E" in let HE := fresh "HE" in let H := fresh "Ht" in
  intros E' ? HE ->; lift HE; assert (H : vok T eof E' t) by (left; assumption).
Ltac take :=
  lazymatch goal with
  | |- ParserBase.TT _ _ _ _ (peekR (Some ?t)) _ _ _ => take_ t
  | |- ParserBase.TT _ _ _ _ (Head ?t) _ _ _ => take_ t
  end.

Local Notation OK m := (forall (E : Prop) (Pre : pst -> Prop), TT E Pre m VOK anyR).

(** ** types.rs *)

Lemma G_non_empty_type_ref : OK (non_empty_type_ref n).
Proof.
  intros. unfold non_empty_type_ref. go. eapply TT_bind; [loopJ neVt neVt mono_neVt; go | intro_res]. go.
Qed.
Hint Resolve G_non_empty_type_ref : tt.
Lemma G_type_ref_list : forall (E : Prop) (Pre : pst -> Prop), TT E Pre (type_ref_list n) neV anyR.
Proof.
  intros. unfold type_ref_list. go. loopne. go.
Qed.
Hint Resolve G_type_ref_list : tt.
Lemma G_type_ref : OK (type_ref n).
Proof.
  intros. unfold type_ref. go. bindv.
  { loopv. stepn xx. destruct xx as [i|]; [|fin]. destruct (is_identifier i); [|fin].
    take. go. }
  destruct a0 as [|x l]; go.
Qed.
Hint Resolve G_type_ref : tt.
Lemma G_non_empty_namespace_ref : forall (E : Prop) (Pre : pst -> Prop), TT E Pre (non_empty_namespace_ref n) neVt anyR.
Proof.
  intros. unfold non_empty_namespace_ref. go. loopJ neVt neVt mono_neVt.
  stepn xx. destruct xx as [ns|]; [|fin]. stepn xx. destruct xx as [i|]; [|fin].
  destruct (is_identifier i); [|fin].
  take. go.
Qed.
Hint Resolve G_non_empty_namespace_ref : tt.
Lemma G_non_empty_type_ref_union : forall (E : Prop) (Pre : pst -> Prop), TT E Pre (non_empty_type_ref_union n) neV anyR.
Proof.
  intros. unfold non_empty_type_ref_union. go. loopne. go.
Qed.
Hint Resolve G_non_empty_type_ref_union : tt.
Lemma G_type_ref_union : forall (E : Prop) (Pre : pst -> Prop), TT E Pre (type_ref_union n) oneV anyR.
Proof.
  intros. unfold type_ref_union. stepn xx. destruct xx as [t|]; [|fin]. eapply TT_bind; [loopne; go | intro_res]. fin.
Qed.
Hint Resolve G_type_ref_union : tt.
Lemma G_data_type : OK (data_type n).
Proof.
  intros. unfold data_type. gol.
Qed.
Hint Resolve G_data_type : tt.

(** ** variables.rs *)

Lemma G_variable : OK (variable rec n).
Proof.
  intros. unfold variable. step. destruct (t_label a); [fin|]. stepn xx. destruct xx as [oc|]; [go|].
  loopJ neVt (vok (A := Node) T eof) (mono_vok T eof Node). stepn xx. destruct xx.
  - eapply TT_bind; [apply TT_or_ff_before; assumption|]. intro_res.
    destruct (t_label a1).
    + apply TT_ret; [|intros ? ?; exact I]. intros E5 HE5. lift HE5.
      assert (G : VOK E5 (NVariable a1)) by (apply good_, mkGood; cbn; auto; [constructor; [left; assumption|constructor]|discriminate]).
      assert (Hl : VOK E5 a0) by assumption. clear - Hl G. revert G. generalize (NVariable a1).
      induction Hl as [|x l Hx Hl IH]; intros r G; cbn [fold_left]; [exact G|].
      apply IH. vk.
    + assert (VOK E4 a1) by (left; assumption). fin.
  - destruct a0 as [|last l]; [contradiction Hne; reflexivity|].
    apply Forall_inv in Ha1. pose proof (ok_end _ _ Ha1) as Hl.
    destruct Hl as (Hl & [[-> w]|(pos & -> & Hp)]); [intros s _ _ _; exact w|].
    eapply TT_bind; [apply TT_push_err; exact Hl|intro_res]. apply TT_ret; [|intros ? ?; exact I].
    intros E6 HE6. lift HE6. apply good_, mkGood; cbn; auto. constructor; [right; auto|constructor].
 
Qed.
Hint Resolve G_variable : tt.
Lemma G_global_variables : OK (global_variables rec n).
Proof.
  intros. unfold global_variables. go. eapply TT_bind; [loopne; go | intro_res]. go.
Qed.
Hint Resolve G_global_variables : tt.
Lemma G_static_variables : forall t (E : Prop) (Pre : pst -> Prop), VOK E t -> TT E Pre (static_variables rec n t) (vok T eof) anyR.
Proof.
  intros. unfold static_variables. gol.
Qed.
Hint Resolve G_static_variables : tt.
Lemma G_const_item : OK (const_item rec).
Proof.
  intros. unfold const_item. gol.
Qed.
Hint Resolve G_const_item : tt.
Lemma G_const_statement : OK (const_statement rec n).
Proof.
  intros. unfold const_statement. go. eapply TT_bind; [loopne; go | intro_res]. go.
Qed.
Hint Resolve G_const_statement : tt.
Lemma G_lexical_variable : OK (lexical_variable).
Proof.
  intros. unfold lexical_variable. gol.
Qed.
Hint Resolve G_lexical_variable : tt.
Lemma G_non_empty_lexical_variables_list : OK (non_empty_lexical_variables_list n).
Proof.
  intros. unfold non_empty_lexical_variables_list. gol.
Qed.
Hint Resolve G_non_empty_lexical_variables_list : tt.

(** ** attributes.rs *)

Lemma G_attribute : OK (attribute rec n).
Proof.
  intros. unfold attribute. gol.
Qed.
Hint Resolve G_attribute : tt.
Lemma G_attributes_block : OK (attributes_block rec n).
Proof.
  intros. unfold attributes_block. gol.
Qed.
Hint Resolve G_attributes_block : tt.

(** ** arrays.rs *)

Lemma G_array_pair : OK (array_pair rec).
Proof.
  intros. unfold array_pair. gol.
Qed.
Hint Resolve G_array_pair : tt.
Lemma G_array : OK (array rec n).
Proof.
  intros. unfold array. gol.
Qed.
Hint Resolve G_array : tt.
Lemma G_old_array : OK (old_array rec n).
Proof.
  intros. unfold old_array. gol.
Qed.
Hint Resolve G_old_array : tt.

(** ** functions.rs *)

Lemma G_argument_type : OK (argument_type n).
Proof.
  intros. unfold argument_type. stepn xx. destruct xx as [q|]; [go|]. eapply TT_bind; [apply G_type_ref_union|]. intros E1 [l|] HE1 Ha1; lift HE1; [destruct Ha1 as [Ha1 Hne]|]; go.
Qed.
Hint Resolve G_argument_type : tt.
Lemma G_argument_list : forall d (E : Prop) (Pre : pst -> Prop), VOK E d -> TT E Pre (argument_list rec n d) (vok T eof) anyR.
Proof.
  intros. unfold argument_list. gol.
Qed.
Hint Resolve G_argument_list : tt.
Lemma G_return_type : OK (return_type n).
Proof.
  intros. unfold return_type. gol.
Qed.
Hint Resolve G_return_type : tt.
Lemma G_anonymous_function_statement : forall d (E : Prop) (Pre : pst -> Prop), VOK E d -> TT E Pre (anonymous_function_statement rec n d) (vok T eof) anyR.
Proof.
  intros. unfold anonymous_function_statement. gol.
Qed.
Hint Resolve G_anonymous_function_statement : tt.
Lemma G_named_function : forall d l (E : Prop) (Pre : pst -> Prop), VOK E d -> VOK E l -> TT E Pre (named_function rec n d l) (vok T eof) anyR.
Proof.
  intros. unfold named_function. gol.
Qed.
Hint Resolve G_named_function : tt.
Lemma G_arrow_function : forall d l (E : Prop) (Pre : pst -> Prop), VOK E d -> VOK E l -> TT E Pre (arrow_function rec n d l) (vok T eof) anyR.
Proof.
  intros. unfold arrow_function. gol.
Qed.
Hint Resolve G_arrow_function : tt.
Lemma G_anonymous_function : forall d l (E : Prop) (Pre : pst -> Prop), VOK E d -> VOK E l -> TT E Pre (anonymous_function rec n d l) (vok T eof) anyR.
Proof.
  intros. unfold anonymous_function. gol.
Qed.
Hint Resolve G_anonymous_function : tt.
Lemma G_parameters_loop : forall l (E : Prop) (Pre : pst -> Prop), VOK E l -> TT E Pre (parameters_loop rec n l) (vok T eof) anyR.
Proof.
  intros. unfold parameters_loop. gol.
Qed.
Hint Resolve G_parameters_loop : tt.
Lemma G_non_empty_parameter_list : OK (non_empty_parameter_list rec n).
Proof.
  intros. unfold non_empty_parameter_list. go.
Qed.
Hint Resolve G_non_empty_parameter_list : tt.
Lemma G_parameter_list : OK (parameter_list rec n).
Proof.
  intros. unfold parameter_list. apply G_parameters_loop. vk.
Qed.
Hint Resolve G_parameter_list : tt.
Lemma G_return_statement : OK (return_statement rec).
Proof.
  intros. unfold return_statement. gol.
Qed.
Hint Resolve G_return_statement : tt.

(** ** calls.rs *)

Lemma G_finish_call : forall e (E : Prop) (Pre : pst -> Prop), VOK E e -> TT E Pre (finish_call rec n e) (vok T eof) anyR.
Proof.
  intros. unfold finish_call. step. bindv.
  { loopv. stepn xx. destruct xx; [fin|].
    eapply TT_bind; [apply TT_next_is_identifier; assumption|]. intros E4 i HE4 _. lift HE4.
    bindv.
    { destruct i.
      - eapply TT_pre_ex with (Pre' := fun t s => (T t /\ is_identifier t = true) /\ Head t s).
        { intros s Hs. destruct (Hs eq_refl) as (t & H1 & H2 & H3). exists t. auto. }
        intros t. eapply TT_pre_pure; [intros s Hs; exact Hs|]. intros [Ht Hi].
        eapply TT_bind; [apply TT_identifier_head; assumption|]. intros E5 u HE5 ->. lift HE5.
        assert (VOK E5 t) by (left; assumption). stepn xx. destruct xx; [gol|].
        eapply TT_bind; [apply TT_push_tok; [assumption|]|intro_res].
        { intros Hh. unfold is_identifier in Hi. rewrite Hh in Hi. discriminate. }
        gol.
      - gol. }
    gol. }
  gol.
Qed.
Hint Resolve G_finish_call : tt.
Lemma G_init_call : forall e (E : Prop) (Pre : pst -> Prop), VOK E e -> TT E Pre (init_call rec n e) (vok T eof) anyR.
Proof.
  intros. unfold init_call. loopv.
  stepn xx. destruct xx; [gol|]. stepn xx. destruct xx as [os|].
  { stepn xx. destruct xx; [gol|]. stepn xx. destruct xx; [gol|].
    eapply TT_bind; [eapply TT_pcatchv; apply TT_identifier; assumption|intro_res].
    destruct a0 as [i|er]; [gol|].
    eapply TT_bind; [apply TT_push_err; match goal with H : vok T eof ?E (Some os) |- _ => exact (proj1 (ok_end E os H)) end|intro_res].
    apply TT_ret; [|intros ? ?; exact I]. intros E9 HE9. lift HE9. vk. }
  stepn xx. destruct xx as [pn|].
  { stepn xx. destruct xx; [gol|]. stepn xx. destruct xx; [gol|]. stepn xx. destruct xx; [gol|].
    eapply TT_bind; [apply TT_push_err; match goal with H : vok T eof ?E (Some pn) |- _ => exact (proj1 (ok_end E pn H)) end|intro_res].
    apply TT_ret; [|intros ? ?; exact I]. intros E9 HE9. lift HE9. vk. }
  gol.
Qed.
Hint Resolve G_init_call : tt.

(** ** keywords.rs *)

Lemma G_list_ : OK (list_ rec n).
Proof.
  intros. unfold list_. gol.
Qed.
Hint Resolve G_list_ : tt.
Lemma G_declare_statement : OK (declare_statement).
Proof.
  intros. unfold declare_statement. gol.
Qed.
Hint Resolve G_declare_statement : tt.
Lemma G_unset_statement : OK (unset_statement rec n).
Proof.
  intros. unfold unset_statement. gol.
Qed.
Hint Resolve G_unset_statement : tt.
Lemma G_die_statement : OK (die_statement rec).
Proof.
  intros. unfold die_statement. gol.
Qed.
Hint Resolve G_die_statement : tt.
Lemma G_define_statement : OK (define_statement rec).
Proof.
  intros. unfold define_statement. gol.
Qed.
Hint Resolve G_define_statement : tt.
Lemma G_comma_expressions : forall (E : Prop) (Pre : pst -> Prop), TT E Pre (comma_expressions rec n) neV anyR.
Proof.
  intros. unfold comma_expressions. go. loopne. go.
Qed.
Hint Resolve G_comma_expressions : tt.
Lemma G_echo_statement : OK (echo_statement rec n).
Proof.
  intros. unfold echo_statement. gol.
Qed.
Hint Resolve G_echo_statement : tt.
Lemma G_short_tag_echo_statement : OK (short_tag_echo_statement rec n).
Proof.
  intros. unfold short_tag_echo_statement. gol.
Qed.
Hint Resolve G_short_tag_echo_statement : tt.
Lemma G_print_statement : OK (print_statement rec).
Proof.
  intros. unfold print_statement. gol.
Qed.
Hint Resolve G_print_statement : tt.
Lemma G_goto_statement : OK (goto_statement).
Proof.
  intros. unfold goto_statement. gol.
Qed.
Hint Resolve G_goto_statement : tt.

(** ** classes.rs *)

Lemma G_identifier_list : OK (identifier_list n).
Proof.
  intros. unfold identifier_list. gol.
Qed.
Hint Resolve G_identifier_list : tt.
Lemma G_trait_usage_alteration_group : forall l (E : Prop) (Pre : pst -> Prop), VOK E l -> TT E Pre (trait_usage_alteration_group n l) (vok T eof) anyR.
Proof.
  intros. unfold trait_usage_alteration_group. gol.
Qed.
Hint Resolve G_trait_usage_alteration_group : tt.
Lemma G_trait_usages : OK (trait_usages n).
Proof.
  intros. unfold trait_usages. gol.
Qed.
Hint Resolve G_trait_usages : tt.
Lemma G_use_trait_statement : OK (use_trait_statement n).
Proof.
  intros. unfold use_trait_statement. gol.
Qed.
Hint Resolve G_use_trait_statement : tt.
Lemma G_modifiers : OK (modifiers n).
Proof.
  intros. unfold modifiers. gol.
Qed.
Hint Resolve G_modifiers : tt.
Lemma G_class_block_statement : OK (class_block_statement rec n).
Proof.
  intros. unfold class_block_statement. stepn xx. destruct xx; [gol|]. step. step. bindv; [gol|].
  step.
  stepn xx. destruct xx as [tk|].
  { eapply TT_bind; [loopJ (vok (A := list Node) T eof) neV mono_neV; go|intro_res]. gol. }
  stepn xx. destruct xx as [tk|]; [gol|].
  step. bindv; [gol|]. eapply TT_bind; [loopJ (vok (A := list Node) T eof) neV mono_neV; go|intro_res]. gol.
Qed.
Hint Resolve G_class_block_statement : tt.
Lemma G_class_block : OK (class_block rec n).
Proof.
  intros. unfold class_block. gol; match goal with x : (Node + perr)%type |- _ => destruct x end; fin.
Qed.
Hint Resolve G_class_block : tt.
Lemma G_class_statement : forall a b l (E : Prop) (Pre : pst -> Prop), VOK E a -> VOK E b -> VOK E l -> TT E Pre (class_statement rec n a b l) (vok T eof) anyR.
Proof.
  intros. unfold class_statement. gol.
Qed.
Hint Resolve G_class_statement : tt.
Lemma G_abstract_class_statement : forall l (E : Prop) (Pre : pst -> Prop), VOK E l -> TT E Pre (abstract_class_statement rec n l) (vok T eof) anyR.
Proof.
  intros. unfold abstract_class_statement. gol.
Qed.
Hint Resolve G_abstract_class_statement : tt.
Lemma G_final_class_statement : forall l (E : Prop) (Pre : pst -> Prop), VOK E l -> TT E Pre (final_class_statement rec n l) (vok T eof) anyR.
Proof.
  intros. unfold final_class_statement. gol.
Qed.
Hint Resolve G_final_class_statement : tt.
Lemma G_anonymous_class : forall l (E : Prop) (Pre : pst -> Prop), VOK E l -> TT E Pre (anonymous_class rec n l) (vok T eof) anyR.
Proof.
  intros. unfold anonymous_class. gol.
Qed.
Hint Resolve G_anonymous_class : tt.
Lemma G_interface : OK (interface rec n).
Proof.
  intros. unfold interface. gol.
Qed.
Hint Resolve G_interface : tt.
Lemma G_trait_statement : OK (trait_statement rec n).
Proof.
  intros. unfold trait_statement. gol.
Qed.
Hint Resolve G_trait_statement : tt.

(** ** conditionals.rs (match) *)

Lemma G_match_body : OK (match_body rec n).
Proof.
  intros. unfold match_body. gol.
Qed.
Hint Resolve G_match_body : tt.

(** ** expressions.rs *)

Lemma G_primary : OK (primary rec n).
Proof.
  intros. unfold primary. 
  stepn xx. destruct xx. { apply TT_is_head. intros t Ht Hin. take. gol. }
  stepn xx. destruct xx; [gol|].
  stepn xx. destruct xx; [gol|].
  stepn xx. destruct xx.
  { apply TT_is_head. intros t Ht Hin. destruct Hin as [Hin|[]].
    apply P_heredoc; auto. }
  gol.
Qed.
Hint Resolve G_primary : tt.
Lemma G_call : OK (call rec n).
Proof.
  intros. unfold call. gol.
Qed.
Hint Resolve G_call : tt.
Lemma G_operator_loop : forall bp l (E : Prop) (Pre : pst -> Prop), VOK E l -> TT E Pre (operator_loop rec n bp l) (vok T eof) anyR.
Proof.
  intros. unfold operator_loop. loopv.
  eapply TT_bind; [apply TT_next_is_operator; assumption|]. intros E2 b HE2 _. lift HE2.
  destruct b; cbn [negb]; [|fin].
  eapply TT_pre_ex with (Pre' := fun t s => T t /\ Head t s).
  { intros s Hs. destruct (Hs eq_refl) as (t & H1 & H2). exists t. auto. }
  intros t. eapply TT_pre_pure; [intros s Hs; exact Hs|]. intros Ht.
  eapply TT_bind; [apply TT_peek_head; assumption|]. intros E3 o HE3 ->. lift HE3.
  destruct (postfix_binding_power (t_type t)) as [lb|].
  { destruct (lb <? bp)%N; [fin|]. take. fin. }
  destruct (infix_binding_power (t_type t)) as [[lb rb]|]; [|fin].
  destruct (lb <? bp)%N; [fin|]. take. gol.
Qed.
Hint Resolve G_operator_loop : tt.
Lemma G_expression_body : forall bp (E : Prop) (Pre : pst -> Prop), TT E Pre (expression_body rec n bp) (vok T eof) anyR.
Proof.
  intros. unfold expression_body. stepn xx. destruct xx as [t|]; [|fin].
  bindv; [|gol]. destruct (prefix_binding_power (t_type t)); [take; gol|gol].
Qed.
Hint Resolve G_expression_body : tt.
Lemma G_expression_statement : OK (expression_statement rec).
Proof.
  intros. unfold expression_statement. gol.
Qed.
Hint Resolve G_expression_statement : tt.

(** ** mod.rs: blocks *)

Lemma G_statements_loop : forall stop, (forall (E : Prop) (Pre : pst -> Prop), TT E Pre stop (vok T eof) anyR) ->
  OK (statements_loop rec n stop).
Proof.
  intros. unfold statements_loop. loopv. eapply TT_bind; [apply H|intro_res]. destruct a0; [fin|].
  stepn xx. destruct xx as [t|]; [|fin].
  eapply TT_bind; [eapply TT_pcatchv; gram | intro_res]. destruct a0 as [nw|e].
  - gol.
  - eapply TT_bind; [apply TT_push_err; assumption|intro_res]. gol.
Qed.
Lemma next_one_of_any : forall l, OK (next_token_one_of l).
Proof. intros. eapply TT_anyR, TT_next_one_of. Qed.
Hint Resolve G_statements_loop next_one_of_any : tt.
Lemma G_block_body : OK (block_body rec n).
Proof.
  intros. unfold block_body. gol.
Qed.
Hint Resolve G_block_body : tt.
Lemma G_alternative_block : forall t (E : Prop) (Pre : pst -> Prop), TT E Pre (alternative_block rec n t) (vok T eof) anyR.
Proof.
  intros. unfold alternative_block. gol.
Qed.
Hint Resolve G_alternative_block : tt.
Lemma G_alternative_block_or_statement : forall t (E : Prop) (Pre : pst -> Prop), TT E Pre (alternative_block_or_statement rec n t) (vok T eof) anyR.
Proof.
  intros. unfold alternative_block_or_statement. gol.
Qed.
Hint Resolve G_alternative_block_or_statement : tt.
Lemma G_inline_html : OK (inline_html rec n).
Proof.
  intros. unfold inline_html. gol.
Qed.
Hint Resolve G_inline_html : tt.

(** ** conditionals.rs *)

Lemma G_if_statements : OK (if_statements rec n).
Proof.
  intros. unfold if_statements. gol.
Qed.
Hint Resolve G_if_statements : tt.
Lemma G_if_statement : OK (if_statement rec n).
Proof.
  intros. unfold if_statement. gol.
Qed.
Hint Resolve G_if_statement : tt.
Lemma G_case_list : OK (case_list rec n).
Proof.
  intros. unfold case_list. gol.
Qed.
Hint Resolve G_case_list : tt.
Lemma G_switch_body : OK (switch_body rec n).
Proof.
  intros. unfold switch_body. gol.
Qed.
Hint Resolve G_switch_body : tt.
Lemma G_switch_statement : OK (switch_statement rec n).
Proof.
  intros. unfold switch_statement. gol.
Qed.
Hint Resolve G_switch_statement : tt.

(** ** loops.rs *)

Lemma G_for_part : forall t (E : Prop) (Pre : pst -> Prop), TT E Pre (for_part rec n t) (vok T eof) anyR.
Proof.
  intros. unfold for_part. gol.
Qed.
Hint Resolve G_for_part : tt.
Lemma G_for_statement : OK (for_statement rec n).
Proof.
  intros. unfold for_statement. gol.
Qed.
Hint Resolve G_for_statement : tt.
Lemma G_while_statement : OK (while_statement rec n).
Proof.
  intros. unfold while_statement. gol.
Qed.
Hint Resolve G_while_statement : tt.
Lemma G_foreach_statement : OK (foreach_statement rec n).
Proof.
  intros. unfold foreach_statement. gol.
Qed.
Hint Resolve G_foreach_statement : tt.
Lemma G_do_while_statement : OK (do_while_statement rec).
Proof.
  intros. unfold do_while_statement. gol.
Qed.
Hint Resolve G_do_while_statement : tt.

(** ** exception_handling.rs *)

Lemma G_catch_block : OK (catch_block rec n).
Proof.
  intros. unfold catch_block. gol.
Qed.
Hint Resolve G_catch_block : tt.
Lemma G_try_catch_statement : OK (try_catch_statement rec n).
Proof.
  intros. unfold try_catch_statement. gol.
Qed.
Hint Resolve G_try_catch_statement : tt.
Lemma G_throw_statement : OK (throw_statement rec).
Proof.
  intros. unfold throw_statement. gol.
Qed.
Hint Resolve G_throw_statement : tt.

(** ** namespaces.rs *)

Lemma G_namespace_statement : OK (namespace_statement rec n).
Proof.
  intros. unfold namespace_statement. gol.
Qed.
Hint Resolve G_namespace_statement : tt.
Lemma G_symbol_import : OK (symbol_import n).
Proof.
  intros. unfold symbol_import. gol.
Qed.
Hint Resolve G_symbol_import : tt.
Lemma G_symbol_imports : OK (symbol_imports n).
Proof.
  intros. unfold symbol_imports. gol.
Qed.
Hint Resolve G_symbol_imports : tt.
Lemma G_use_function_statement : forall t (E : Prop) (Pre : pst -> Prop), VOK E t -> TT E Pre (use_function_statement n t) (vok T eof) anyR.
Proof.
  intros. unfold use_function_statement. eapply TT_bind; [loopJ (vok (A := list Node) T eof) neV mono_neV|intro_res; gol]. step. step. bindw neV; [gol|]. gol.
Qed.
Hint Resolve G_use_function_statement : tt.
Lemma G_use_const_statement : forall t (E : Prop) (Pre : pst -> Prop), VOK E t -> TT E Pre (use_const_statement n t) (vok T eof) anyR.
Proof.
  intros. unfold use_const_statement. eapply TT_bind; [loopJ (vok (A := list Node) T eof) neV mono_neV|intro_res; gol]. step. step. bindw neV; [gol|]. gol.
Qed.
Hint Resolve G_use_const_statement : tt.
Lemma G_use_statement : forall t (E : Prop) (Pre : pst -> Prop), VOK E t -> TT E Pre (use_statement n t) (vok T eof) anyR.
Proof.
  intros. unfold use_statement. eapply TT_bind; [loopJ (vok (A := list Node) T eof) neV mono_neV|intro_res; gol]. step.
  bindw neV; [|gol]. destruct (last_opt a0) as [lst|] eqn:Hlast; [gol|].
  exfalso. exact (last_opt_some _ a0 Hne Hlast).
Qed.
Hint Resolve G_use_statement : tt.

(** ** mod.rs: statements *)

Lemma G_expression_or_label : OK (expression_or_label rec n).
Proof.
  intros. unfold expression_or_label. 
  eapply TT_bind; [apply TT_or_ignore; assumption|]. intros E1 [st|] HE1 Ha.
  - bindv.
    { destruct Ha as [Ht Hty]. stepn xx. destruct xx; [|].
      + assert (VOK E0 st) by (left; assumption). gol.
      + eapply TT_bind; [apply TT_push_tok; [assumption|congruence]|intro_res]. fin. }
    gol.
  - bindv; [|gol].
    eapply TT_bind; [apply TT_or_ignore; assumption|]. intros E2 [lb|] HE2 Hb; [|fin].
    destruct Hb as [Ht Hty]. stepn xx. destruct xx as [c|].
    + assert (VOK E0 lb) by (left; assumption). fin.
    + eapply TT_bind; [apply TT_push_tok; [assumption|congruence]|intro_res]. fin.
Qed.
Hint Resolve G_expression_or_label : tt.
Lemma G_statement_in_script : OK (statement_in_script rec n).
Proof.
  intros. unfold statement_in_script. step. stepn xx. destruct xx as [t|]; [|fin].
  destruct (t_type t); try solve [gol]; take; gol.
Qed.
Hint Resolve G_statement_in_script : tt.
Lemma G_statement_body : OK (statement_body rec n).
Proof.
  intros. unfold statement_body. stepn xx. destruct xx; [|gol]. stepn xx. destruct xx as [t|]; [|gol].
  assert (HTt : T t) by assumption.
  destruct (t_type t) as []; try solve [apply TT_fail; left; assumption]; try solve [gol].
  match goal with |- context [match ?k with Regular => _ | _ => _ end] => destruct k end; try solve [gol].
  eapply TT_bind; [eapply TT_pcatchv; gram | intro_res]. step. bindv; [gol|].
  destruct a as [x|e]; [fin|]. apply TT_fail. assumption.
Qed.
Hint Resolve G_statement_body : tt.
End Grammar.
