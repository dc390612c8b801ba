(** Property C58: the classes of the objects that variables hold. *)

From Coq Require Import Permutation.
From Verif Require Import Base Token TokenFacts Scanner Node DocBlock Parser Assoc AssocFacts Arena ArenaFacts
  Symbol EnvMonad EnvFacts Workspace WorkspaceFacts Resolver SpecNames ResolverFacts
  Backend BackendFacts SpecServer ServerInv Prop_Server Prop_Names Prop_Members Prop_Overrides Prop_Access Prop_Scopes Prop_Locals.

Local Notation findS := (find str_eqb).
Local Existing Instance ascii_runtime | 9.
Local Existing Instance plain_hashing | 9.
Local Open Scope string_scope.
Local Open Scope N_scope.
Local Open Scope list_scope.

(** * Specification *)

Section Types.
Context {RT : Runtime} {HH : Hashing}.

(** The type [tr], written in the declaration [anchor], is the name of the
    class [c] (C30). *)
Definition names_class (s : rst) (tr : TypeRef) (anchor c : N) : Prop :=
  exists w full d, asks s tr anchor w full /\
    findS (to_lowercase (joined full)) (r_global s) = Some c /\ data (r_arena s) c = Some d.

(** The function that is analysed has the parameter [x], of which the first
    type is [tr]. *)
Definition has_parameter (s : rst) (x : str) (tr : TypeRef) : Prop :=
  exists l1 i l2 d r rs, kids (r_arena s) (r_container s) = Some (l1 ++ i :: l2) /\
    data (r_arena s) i = Some d /\ sym_name d = x /\ y_types d = r :: rs /\ sr_type r = tr /\
    forall j e, In j l1 -> data (r_arena s) j = Some e -> sym_name e <> x.

(** No function inside of [n] has a parameter [x]. *)
Definition no_parameter (x : str) (n : Node) : Prop :=
  forall ty name a b c d e f, seen (NFunctionArgument ty name a b c d e f) n -> t_label name <> Some x.

(** The variable [x] stands for a symbol of that name, of which the first type
    is the class [c]. *)
Definition holds (x : str) (c : N) (s : rst) : Prop :=
  exists v d r rs, bound x s v /\ data (r_arena s) v = Some d /\ sym_name d = x /\ y_types d = r :: rs /\ sr_node r = Some c.

(** [e] is an object of the class [c]: [$this], a variable of which the class
    is known, a chain of methods that return their object, or a new object. *)
Inductive object (s : rst) : Node -> N -> Prop :=
| object_receiver : forall e c inside, Receiver s e c inside -> object s e c
| object_chain : forall node e members m ms p c inside, Chain node e (members ++ [m]) -> Receiver s e c inside ->
    Forall2 (uses s c inside) members ms -> Forall (fun p => fluent (snd p)) ms -> uses s c inside m p ->
    fluent (snd p) -> object s node c
| object_new : forall op tr c, t_type op = TNew -> names_class s tr (r_container s) c -> object s (NUnary (NTypeRef tr) op) c
| object_new_call : forall op tr a b c, t_type op = TNew -> names_class s tr (r_container s) c ->
    object s (NUnary (NCall (NTypeRef tr) a [] b) op) c.

(** * Proofs *)

(** ** Types are added to symbols only *)

Definition firm (s s' : rst) : Prop := wf (r_arena s) -> wf (r_arena s') /\
  forall v d, data (r_arena s) v = Some d ->
    exists d' l, data (r_arena s') v = Some d' /\ sym_name d' = sym_name d /\ y_types d' = y_types d ++ l.
Notation firmly := (every firm).
Lemma firm_same : forall s s', r_arena s' = r_arena s -> firm s s'.
Proof. intros s s' h hw. rewrite h. split; [exact hw|]. intros v d e. exists d, []. rewrite app_nil_r. auto. Qed.
Lemma firm_order : order firm.
Proof.
  constructor; [intros s; apply firm_same; reflexivity|]. intros s t u h1 h2 hw.
  destruct (h1 hw) as [hw1 k1]. destruct (h2 hw1) as [hw2 k2]. split; [exact hw2|].
  intros v d e. destruct (k1 v d e) as (d1 & l1 & e1 & n1 & t1). destruct (k2 v d1 e1) as (d2 & l2 & e2 & n2 & t2).
  exists d2, (l1 ++ l2). rewrite t2, t1, app_assoc. split; [exact e2|]. split; [congruence|reflexivity].
Qed.
Lemma f_note : forall n, firmly (note n).
Proof. intros n s x s' e. injection e as _ <-. apply firm_same. reflexivity. Qed.
Lemma f_put : forall k v, firmly (cache_put k v).
Proof. intros k v s x s' e. injection e as _ <-. apply firm_same. reflexivity. Qed.
Lemma f_reference : forall f r n, firmly (reference f r n).
Proof. intros f r n s x s' e. injection e as _ <-. apply firm_same. reflexivity. Qed.
Lemma f_scopes : forall l, firmly (set_scopes l).
Proof. intros l s x s' e. injection e as _ <-. apply firm_same. reflexivity. Qed.
Lemma f_class : forall l, firmly (set_class_ l).
Proof. intros l s x s' e. injection e as _ <-. apply firm_same. reflexivity. Qed.
Lemma f_container : forall l, firmly (set_container l).
Proof. intros l s x s' e. injection e as _ <-. apply firm_same. reflexivity. Qed.
Lemma f_data : forall i, firmly (e_data i).
Proof. intros i s x s' e. unfold e_data in e. destruct (data _ _); [injection e as _ <-; apply firm_order|discriminate e]. Qed.
Lemma f_kids : forall i, firmly (e_kids i).
Proof. intros i s x s' e. unfold e_kids in e. destruct (kids _ _); [injection e as _ <-; apply firm_order|discriminate e]. Qed.
Lemma f_top : forall i, firmly (e_top i).
Proof. intros i s x s' e. unfold e_top in e. destruct (top _ _); [injection e as _ <-; apply firm_order|discriminate e]. Qed.
Lemma f_local : forall t, firmly (get_local t).
Proof. intros t s x s' e. injection e as _ <-. apply firm_order. Qed.
Lemma data_new : forall (d : Symbol) a i a', wf a -> new_node d a = (i, a') -> wf a' /\ data a' i = Some d /\
  forall v e, data a v = Some e -> data a' v = Some e.
Proof.
  intros d a i a' hw e. split; [eapply wf_new; eassumption|]. destruct (node_of_new _ _ _ _ e) as (h1 & h2 & h3).
  unfold data. split; [rewrite h3, h1, N.eqb_refl; reflexivity|]. intros v x hx. rewrite h3.
  destruct (N.eqb_spec v (a_next a)) as [->|]; [|exact hx]. rewrite (wf_not_next _ hw) in hx. discriminate hx.
Qed.
Lemma data_append : forall p c (a : arena Symbol) a', wf a -> append p c a = Some a' -> wf a' /\ forall v, data a' v = data a v.
Proof.
  intros p c a a' hw e. split; [eapply wf_append; eassumption|]. destruct (node_of_append _ _ _ _ hw e) as (_ & _ & _ & _ & _ & h).
  intros v. unfold data. rewrite h. unfold appended. destruct (node_of a v) as [n|]; [|reflexivity].
  cbv zeta. repeat match goal with |- context [if ?b then _ else _] => destruct b end; reflexivity.
Qed.
Lemma data_update : forall i f (a : arena Symbol) a', wf a -> update i f a = Some a' -> wf a' /\
  forall v, data a' v = if v =? i then opt_map f (data a v) else data a v.
Proof.
  intros i f a a' hw e. split; [eapply wf_update; eassumption|]. destruct (node_of_update _ _ _ _ e) as (_ & _ & h).
  intros v. unfold data. rewrite h. destruct (node_of a v); destruct (v =? i); reflexivity.
Qed.
Lemma f_new : forall d, firmly (e_new d).
Proof.
  intros d s x s' e hw. unfold e_new in e. destruct (new_node d (the_arena s)) as [i a] eqn:en. injection e as _ <-.
  destruct (data_new _ _ _ _ hw en) as (h1 & _ & h2). split; [exact h1|]. intros v y hy. exists y, []. rewrite app_nil_r. cbn. auto.
Qed.
Lemma f_append : forall p c, firmly (e_append p c).
Proof.
  intros p c s x s' e hw. unfold e_append in e. destruct (append p c (the_arena s)) as [a|] eqn:en; [|discriminate e]. injection e as _ <-.
  destruct (data_append _ _ _ _ hw en) as (h1 & h2). split; [exact h1|]. intros v y hy. exists y, []. rewrite app_nil_r. cbn. rewrite h2. auto.
Qed.
Lemma f_update : forall i l, firmly (e_update i (fun s => with_types (y_types s ++ l) s)).
Proof.
  intros i l s x s' e hw. unfold e_update in e.
  destruct (update _ _ _) as [a|] eqn:en; [|discriminate e]. injection e as _ <-.
  destruct (data_update _ _ _ _ hw en) as (h1 & h2). split; [exact h1|]. intros v y hy. cbn. cbn in h2. rewrite h2, hy.
  destruct (v =? i); cbn; [|exists y, []; rewrite app_nil_r; auto]. exists (with_types (y_types y ++ l) y), l. cbn. auto.
Qed.

Ltac fi := repeat (cbv beta; match goal with
  | |- forall _, every _ _ => intros ?
  | |- every _ (ebind _ _) => apply (v_bind _ firm_order); [|intros ?]
  | |- every _ (eret _) => apply (v_ret _ firm_order)
  | |- every _ (match ?x with _ => _ end) => destruct x
  | |- every _ epanic => apply v_panic
  | |- every _ efuel => apply v_fuel
  | |- every _ (eopt _) => apply (v_opt _ firm_order)
  | |- every _ (eget _) => apply (v_get _ firm_order)
  | |- every _ (cache_put _ _) => apply f_put
  | |- every _ (note _) => apply f_note
  | |- every _ (reference _ _ _) => apply f_reference
  | |- every _ (set_scopes _) => apply f_scopes
  | |- every _ (set_class_ _) => apply f_class
  | |- every _ (set_container _) => apply f_container
  | |- every _ (e_data _) => apply f_data
  | |- every _ (e_kids _) => apply f_kids
  | |- every _ (e_top _) => apply f_top
  | |- every _ (e_new _) => apply f_new
  | |- every _ (e_append _ _) => apply f_append
  | |- every _ (e_update _ (fun s => with_types (y_types s ++ _) s)) => apply f_update
  | |- every _ (get_local _) => apply f_local
  | |- every _ (efold _ _ _) => apply (v_fold _ firm_order); intros ? ?
  | |- every _ (efind _ _) => apply (v_find _ firm_order); intros ?
  | |- every _ (emap _ _) => apply (v_map _ firm_order); intros ?
  | |- every _ (eiter _ _) => apply (v_iter _ firm_order); intros ? ?
  | h : _ |- _ => apply h
  end).

Lemma f_resolve : forall fuel tr ctx b, firmly (resolve_type_ref fuel tr ctx b).
Proof.
  induction fuel as [|fuel IH]; intros tr ctx b; cbn [resolve_type_ref]; [apply v_fuel|].
  unfold unique_parent, parent_nodes, current_namespace. fi.
Qed.
Lemma f_resolve_all : forall fuel ctx l, firmly (resolve_all (resolve_type_ref fuel) ctx l).
Proof. intros fuel ctx l. pose proof (f_resolve fuel). induction l; cbn [resolve_all]; fi. Qed.
Lemma f_all : forall fuel ctx, firmly (get_all_symbols fuel ctx).
Proof.
  induction fuel as [|fuel IH]; intros ctx; cbn [get_all_symbols]; [apply v_fuel|].
  pose proof (f_resolve fuel) as HR. pose proof (f_resolve_all fuel) as HA.
  unfold get_imports, trait_symbols, inherited_symbols, parent_nodes, own_symbols, apply_insteadof, apply_as. cbv zeta. fi.
Qed.
Lemma f_new_local : forall d, firmly (new_local d).
Proof. intros d. unfold new_local. fi. Qed.
Lemma f_reference_local : forall f t n, firmly (reference_local f t n).
Proof. intros f t n. unfold reference_local. fi. Qed.
Lemma f_declare : forall f t v, firmly (declare_local_if_new f t v).
Proof. intros f t v. unfold declare_local_if_new. pose proof f_reference_local. fi. Qed.
Lemma f_over : forall f t v b, firmly (declare_or_overwrite_local f t v b).
Proof. intros f t v b. unfold declare_or_overwrite_local. pose proof f_reference_local. fi. Qed.
Lemma f_variable_type : forall fuel n l, firmly (variable_type fuel n l).
Proof. intros fuel n l. pose proof (f_resolve fuel). induction l; cbn [variable_type]; fi. Qed.
Lemma f_chain_root : forall fuel again file node cur chain, (forall n, firmly (again n)) ->
  firmly (chain_root fuel again file node cur chain).
Proof.
  induction fuel as [|fuel IH]; intros again file node cur chain h; cbn [chain_root]; [apply v_fuel|].
  pose proof (f_resolve fuel) as HR. pose proof (f_variable_type fuel). pose proof f_new_local. pose proof f_declare.
  pose proof f_reference_local. unfold unique_parent, parent_nodes. fi.
Qed.
Lemma f_member_type : forall fuel f m c l, firmly (member_type fuel f m c l).
Proof.
  intros fuel f m c l. pose proof (f_resolve fuel) as HR. induction l; cbn [member_type]; [fi|].
  unfold unique_parent, parent_nodes. fi.
Qed.
Lemma f_follow : forall fuel file fname minimal chain root, firmly (follow_chain fuel file fname minimal root chain).
Proof.
  intros fuel file fname minimal chain. pose proof (f_all fuel). pose proof f_member_type. pose proof f_reference_local.
  induction chain; intros root; cbn [follow_chain]; fi.
Qed.
Lemma f_member : forall fuel file node, firmly (resolve_member_type fuel file node).
Proof.
  induction fuel as [|fuel IH]; intros file node; cbn [resolve_member_type]; [apply v_fuel|].
  pose proof f_follow. pose proof f_chain_root. fi.
Qed.
Lemma f_each : forall fuel l p, firmly (resolve_each fuel l p).
Proof. intros fuel l p. pose proof f_resolve. unfold resolve_each. fi. Qed.
Lemma f_resolved_ref : forall fuel tr p, firmly (resolved_ref fuel tr p).
Proof. intros fuel tr p. pose proof f_resolve. unfold resolved_ref. fi. Qed.
Lemma f_find_kid : forall i p, firmly (e_find_kid i p).
Proof. intros i p. unfold e_find_kid. fi. Qed.
Lemma f_fq : forall n, firmly (resolve_fully_qualified n).
Proof. intros n. unfold resolve_fully_qualified. fi. Qed.

Definition an_argument (n : Node) : Prop := match n with NFunctionArgument _ _ _ _ _ _ _ _ => True | _ => False end.
Lemma f_visit : forall fuel file node parent, ~ an_argument node -> firmly (n_visit fuel file node parent).
Proof.
  intros fuel file node parent h. pose proof f_member. pose proof f_resolve. pose proof f_reference_local. pose proof f_declare.
  pose proof f_over. pose proof f_new_local. pose proof f_each. pose proof f_resolved_ref. pose proof f_find_kid. pose proof f_fq.
  destruct node; try (exfalso; apply h; exact I); clear h; cbn [n_visit]; try (apply (v_ret _ firm_order)); unfold enter_class; fi.
Qed.
Lemma f_before : forall file node, firmly (n_before file node).
Proof.
  intros file node. pose proof f_find_kid. destruct node; cbn [n_before]; unfold push_scope, clone_scope; fi.
Qed.
Lemma f_after : forall node parent, firmly (n_after node parent).
Proof. intros node parent. destruct node; cbn [n_after]; unfold leave_class, pop_scope; fi. Qed.

Definition typed (v : N) (x : str) (r : SRef) (s : rst) : Prop :=
  exists d rs, data (r_arena s) v = Some d /\ sym_name d = x /\ y_types d = r :: rs.
Definition stay (v : N) (x : str) (r : SRef) (s s' : rst) : Prop :=
  wf (r_arena s) -> wf (r_arena s') /\ (typed v x r s -> typed v x r s').
Lemma stay_order : forall v x r, order (stay v x r).
Proof.
  intros v x r. constructor; [intros s hw; auto|]. intros s t u h1 h2 hw. destruct (h1 hw) as [w1 k1]. destruct (h2 w1) as [w2 k2]. auto.
Qed.
Lemma stay_firm : forall v x r A (m : R A), firmly m -> every (stay v x r) m.
Proof.
  intros v x r A m h s y s' e hw. destruct (h _ _ _ e hw) as [w k]. split; [exact w|].
  intros (d & rs & h1 & h2 & h3). destruct (k _ _ h1) as (d' & l & k1 & k2 & k3). exists d', (rs ++ l).
  split; [exact k1|]. split; [congruence|]. rewrite k3, h3. reflexivity.
Qed.
Lemma find_kid_found : forall i (q : Symbol -> bool) s o s', e_find_kid i q s = Done (Some o) s' ->
  s' = s /\ exists d, data (r_arena s) o = Some d /\ q d = true.
Proof.
  intros i q s o s' e. unfold e_find_kid in e. unfold ebind at 1, e_kids in e. destruct (kids _ _) as [l|]; [|discriminate e].
  revert e. induction l as [|k l IH]; cbn [efind]; intros e; [discriminate e|].
  unfold ebind at 1 2, e_data in e. cbn [the_arena rst_arena] in e. destruct (data (r_arena s) k) as [d|] eqn:ed; [|discriminate e].
  unfold eret in e. destruct (q d) eqn:eq; [|exact (IH e)]. injection e as -> <-. eauto.
Qed.
Lemma argument_stays : forall v x r fuel file ty name a b c d e f parent, t_label name <> Some x ->
  every (stay v x r) (n_visit fuel file (NFunctionArgument ty name a b c d e f) parent).
Proof.
  intros v x r fuel file ty name a b c d e f parent hn s y s' h. cbn [n_visit] in h.
  unfold ebind at 1, eget in h. take h as e1.
  destruct x0 as [arg|]; [|injection h as _ <-; eapply stay_firm, e1; apply f_find_kid].
  apply find_kid_found in e1 as (-> & da & h1 & h2).
  assert (hl : t_label name = Some (sym_name da)).
  { destruct (t_label name) as [l|]; [|discriminate h2]. destruct (str_eqb_spec (sym_name da) l); congruence. }
  assert (G : typed v x r s -> arg <> v) by (intros (d0 & rs & k1 & k2 & k3) ->; congruence).
  unfold ebind at 1, e_data in h. cbn [the_arena rst_arena] in h. rewrite h1 in h.
  take h as e2. take h as e3. take h as e4. take h as e5. injection h as _ <-.
  intros hw.
  assert (F1 : stay v x r s t).
  { eapply stay_firm, e2. apply (v_map _ firm_order). intros q. apply f_resolved_ref. }
  destruct (F1 hw) as [w1 k1].
  assert (F2 : wf (r_arena t0) /\ (typed v x r s -> typed v x r t0)).
  { unfold e_update in e3. destruct (update _ _ _) as [ar|] eqn:eu; [|discriminate e3]. injection e3 as _ <-.
    destruct (data_update _ _ _ _ w1 eu) as [w2 k2]. split; [exact w2|]. intros ht. pose proof (G ht) as hne.
    destruct (k1 ht) as (d0 & rs & q1 & q2 & q3). exists d0, rs. split; [|auto]. cbn. rewrite k2.
    destruct (N.eqb_spec v arg) as [->|]; [congruence|exact q1]. }
  destruct F2 as [w2 k2].
  assert (F3 : stay v x r t0 t1) by (eapply stay_firm, e4; apply f_over).
  assert (F4 : stay v x r t1 t2).
  { eapply stay_firm, e5. pose proof f_reference_local. fi. }
  destruct (F3 w2) as [w3 k3]. destruct (F4 w3) as [w4 k4]. auto.
Qed.

Lemma no_parameter_child : forall x n c, no_parameter x n -> In c (children n) -> no_parameter x c.
Proof. intros x n c h hc ty name a b d e f g hs. eapply h. eapply seen_child; eassumption. Qed.
Lemma visit_stays : forall v x r fuel file node parent, no_parameter x node ->
  every (stay v x r) (n_visit fuel file node parent).
Proof.
  intros v x r fuel file node parent h.
  assert (D : an_argument node \/ ~ an_argument node) by (destruct node; try (left; exact I); right; intros []).
  destruct D as [D|D]; [|apply stay_firm, f_visit, D].
  destruct node; try destruct D. apply argument_stays. eapply h. constructor.
Qed.
Lemma traverse_stays : forall v x r fuel file node parent, no_parameter x node ->
  every (stay v x r) (n_traverse fuel file node parent).
Proof.
  intros v x r. induction fuel as [|fuel IH]; intros file node parent h; cbn [n_traverse]; [apply v_fuel|].
  pose proof (stay_order v x r) as O.
  apply (v_bind _ O); [apply stay_firm, f_before|]. intros _. apply (v_bind _ O); [apply visit_stays, h|]. intros [p|].
  - apply (v_bind _ O); [|intros _; apply stay_firm, f_after]. apply (v_iter _ O). intros c hc. apply IH.
    eapply no_parameter_child; eassumption.
  - apply (v_bind _ O); [apply (v_ret _ O)|intros _; apply stay_firm, f_after].
Qed.

Lemma traverse_wf : forall fuel file node parent s y s', n_traverse fuel file node parent s = Done y s' ->
  wf (r_arena s) -> wf (r_arena s').
Proof.
  pose (sound := fun s s' : rst => wf (r_arena s) -> wf (r_arena s')).
  assert (O : order sound) by (constructor; unfold sound; auto).
  assert (F : forall A (m : R A), firmly m -> every sound m) by (intros A m h s y s' e hw; apply (h _ _ _ e hw)).
  assert (V : forall fuel file node parent, every sound (n_visit fuel file node parent)).
  { intros fuel file node parent.
    assert (D : an_argument node \/ ~ an_argument node) by (destruct node; try (left; exact I); right; intros []).
    destruct D as [D|D]; [|apply F, f_visit, D]. destruct node; try destruct D. intros s y s' e hw.
    pose (x := 0 :: match t_label name with Some l => l | None => [] end).
    assert (hx : t_label name <> Some x).
    { unfold x. destruct (t_label name) as [l|]; [|discriminate]. intros h. injection h as h.
      apply (f_equal (@List.length N)) in h. cbn in h. lia. }
    eapply (argument_stays 0 x (mkSRef (tref_one []) (mkRng (mkPos 0 0) (mkPos 0 0)) None)); eassumption. }
  induction fuel as [|fuel IH]; intros file node parent s y s' e; [discriminate e|]. revert e.
  cbn [n_traverse]. revert s y s'. change (every sound (edo n_before file node in
    elet next <- n_visit fuel file node parent in
    edo (match next with None => eret tt | Some p => eiter (fun c => n_traverse fuel file c p) (children node) end) in n_after node parent)).
  apply (v_bind _ O); [apply F, f_before|]. intros _. apply (v_bind _ O); [apply V|]. intros [p|].
  - apply (v_bind _ O); [|intros _; apply F, f_after]. apply (v_iter _ O). intros c hc s y s' e. exact (IH file c p s y s' e).
  - apply (v_bind _ O); [apply (v_ret _ O)|intros _; apply F, f_after].
Qed.

(** ** What a variable holds *)
Lemma holds_holds_object : forall x c s t, holds x c s -> t_label t = Some x -> x <> lit "this" -> holds_object s t c.
Proof.
  intros x c s t (v & d & r & rs & (tp & rest & h1 & h2) & h3 & _ & h4 & h5) hl hn.
  exists x, tp, rest, v, d, r, rs. auto 10.
Qed.
Lemma holds_after : forall x c s s', holds x c s -> wf (r_arena s) -> (forall v, bound x s v -> bound x s' v) ->
  (forall v r, stay v x r s s') -> holds x c s'.
Proof.
  intros x c s s' (v & d & r & rs & h1 & h2 & h3 & h4 & h5) hw hb hs.
  destruct (hs v r hw) as [_ k]. destruct k as (d' & rs' & k1 & k2 & k3); [exists d, rs; auto|].
  exists v, d', r, rs'. auto 10.
Qed.
(** * C58 *)

(** A variable keeps its class through everything that does not bind it
    anew. *)
Theorem C58_stays_partial : forall fuel file node parent s s' x c, n_traverse fuel file node parent s = Done tt s' ->
  wf (r_arena s) -> holds x c s -> ~ rebinds x node -> no_parameter x node ->
  wf (r_arena s') /\ holds x c s'.
Proof.
  intros fuel file node parent s s' x c e hw hh hr hp.
  assert (hs : r_scopes s <> []) by (destruct hh as (v & d & r & rs & (tp & rest & b & _) & _); rewrite b; discriminate).
  split; [apply (traverse_stays 0 x (mkSRef (tref_one []) (mkRng (mkPos 0 0) (mkPos 0 0)) None) _ _ _ _ hp _ _ _ e hw)|].
  eapply holds_after; [exact hh|exact hw|apply (traverse_keep x _ _ _ _ hr _ _ _ hs e)|].
  intros v r. eapply traverse_stays; eassumption.
Qed.

Lemma iter_holds : forall fuel file p x c l s u s', eiter (fun k => n_traverse fuel file k p) l s = Done u s' ->
  wf (r_arena s) -> holds x c s -> (forall k, In k l -> ~ rebinds x k /\ no_parameter x k) ->
  wf (r_arena s') /\ holds x c s'.
Proof.
  intros fuel file p x c. induction l as [|k l IH]; intros s u s' e hw hh hk; cbn [eiter] in e; [injection e as _ <-; auto|].
  step e. destruct x0. destruct (hk k (or_introl eq_refl)) as [k1 k2].
  destruct (C58_stays_partial _ _ _ _ _ _ _ _ e1 hw hh k1 k2) as [w2 h2].
  eapply IH; eauto. intros j hj. apply hk. right. exact hj.
Qed.
Lemma through_holds : forall fuel file node parent s y s' x c, passes node -> ~ rebinds x node -> no_parameter x node ->
  wf (r_arena s) -> holds x c s -> n_traverse (S fuel) file node parent s = Done y s' ->
  exists s1 p, wf (r_arena s1) /\ holds x c s1 /\
    eiter (fun k => n_traverse fuel file k p) (children node) s1 = Done tt s'.
Proof.
  intros fuel file node parent s y s' x c hp hr hn hw hh e.
  assert (h1 : ~ function_node node) by (intros h; destruct node; try destruct h; exact hp).
  assert (h2 : ~ arrow_like node) by (intros h; destruct node; try destruct h; exact hp).
  assert (h3 : ~ class_like node) by (intros h; destruct node; try destruct h; exact hp).
  assert (h4 : forall u, n_after node parent u = Done tt u) by (intros u; destruct node; try reflexivity; try contradiction;
    exfalso; first [apply h1; exact I|apply h2; exact I|apply h3; exact I]).
  cbn [n_traverse] in e. take e as e1. take e as e2. take e as e3. rewrite h4 in e. injection e as _ <-.
  assert (W : wf (r_arena t) /\ holds x c t).
  { split; [apply (f_before _ _ _ _ _ e1 hw)|]. eapply holds_after; [exact hh|exact hw| |intros; eapply stay_firm, e1; apply f_before].
    apply (keep_soft x _ _ (before_soft file node h1 h2) _ _ _ e1). }
  destruct W as [w1 k1].
  assert (W : wf (r_arena t0) /\ holds x c t0).
  { assert (S : forall v r, stay v x r t t0) by (intros v r; eapply visit_stays; eassumption).
    split; [eapply (S 0 (mkSRef (tref_one []) (mkRng (mkPos 0 0) (mkPos 0 0)) None)); exact w1|].
    eapply holds_after; [exact k1|exact w1| |exact S]. apply (visit_keep x fuel file node parent hr _ _ _ e2). }
  destruct W as [w2 k2]. pose proof (visit_passes fuel file node parent hp _ _ _ e2) as hq.
  destruct x1 as [p|]; [|congruence]. destruct x2. eauto 6.
Qed.
Lemma rebinds_child : forall x n c, passes n -> ~ rebinds x n -> In c (children n) -> ~ rebinds x c.
Proof. intros x n c hp hr hi h. apply hr. eapply rb_in; [|exact hi|exact h]. destruct n; auto. Qed.

(** So every part of the function that follows is analysed knowing it. *)
Theorem C58_body_partial : forall fuel file node parent s s' x c, n_traverse fuel file node parent s = Done tt s' ->
  wf (r_arena s) -> holds x c s -> ~ rebinds x node -> no_parameter x node -> forall m, within node m ->
  exists fuel1 p s1 s2, n_traverse fuel1 file m p s1 = Done tt s2 /\ wf (r_arena s1) /\ holds x c s1 /\ grown s2 s'.
Proof.
  intros fuel file node parent s s' x c e hw hh hr hp m hm. revert fuel parent s s' e hw hh hr hp.
  induction hm as [n|n k m hs hi hm IH]; intros fuel parent s s' e hw hh hr hp.
  - do 4 eexists. split; [exact e|]. split; [exact hw|]. split; [exact hh|]. apply grown_order.
  - destruct fuel as [|fuel]; [discriminate e|].
    destruct (through_holds _ _ _ _ _ _ _ _ _ hs hr hp hw hh e) as (s1 & p & w1 & k1 & e1).
    pose proof hi as hj. apply in_split in hi as (l1 & l2 & hi). rewrite hi in e1. apply iter_at in e1 as (s2 & s3 & e2 & e3 & e4).
    assert (C : forall q, In q (children n) -> ~ rebinds x q /\ no_parameter x q).
    { intros q hq. split; [eapply rebinds_child; eassumption|eapply no_parameter_child; eassumption]. }
    destruct (iter_holds _ _ _ _ _ _ _ _ _ e2 w1 k1) as [w2 k2].
    { intros q hq. apply C. rewrite hi. apply in_or_app. auto. }
    destruct (C k hj) as [c1 c2].
    destruct (IH _ _ _ _ e3 w2 k2 c1 c2) as (f1 & q & t1 & t2 & h1 & h2 & h3 & h4).
    exists f1, q, t1, t2. split; [exact h1|]. split; [exact h2|]. split; [exact h3|].
    eapply (or_trans _ grown_order); [exact h4|]. eapply iter_grown, e4.
Qed.

(** ** Where classes come from *)
Lemma find_kid_first : forall (q : Symbol -> bool) s i l1 j l2 d, kids (r_arena s) i = Some (l1 ++ j :: l2) ->
  data (r_arena s) j = Some d -> q d = true -> (forall k e, In k l1 -> data (r_arena s) k = Some e -> q e = false) ->
  forall o s', e_find_kid i q s = Done o s' -> o = Some j /\ s' = s.
Proof.
  intros q s i l1 j l2 d hk hd hq h o s' e. unfold e_find_kid in e. unfold ebind at 1, e_kids in e. cbn [the_arena rst_arena] in e. rewrite hk in e. clear hk.
  revert e. induction l1 as [|k l1 IH]; cbn [app efind]; intros e; unfold ebind at 1 2, e_data in e; cbn [the_arena rst_arena] in e.
  - rewrite hd in e. unfold eret in e. rewrite hq in e. injection e as <- <-. auto.
  - destruct (data (r_arena s) k) as [d'|] eqn:ed; [|discriminate e]. unfold eret in e.
    rewrite (h k d' (or_introl eq_refl) ed) in e. apply IH; [|exact e]. intros k' e' hi. apply h. right. exact hi.
Qed.
Lemma resolves : forall fuel s tr anchor c b x s', names_class s tr anchor c ->
  resolve_type_ref fuel tr anchor b s = Done x s' -> x = Some c.
Proof.
  intros [|fuel] s tr anchor c b x s' (w & full & d & h1 & h2 & h3) e; [discriminate e|].
  destruct (C30_found_partial fuel tr anchor b s w full c d h1 h2 h3) as (s1 & e1). congruence.
Qed.

Lemma declares_bound : forall file t v b s x s' l, t_label t = Some l -> r_scopes s <> [] ->
  declare_or_overwrite_local file t v b s = Done x s' -> firm s s' /\ bound l s' v.
Proof.
  intros file t v b s x s' l hl hs e. split; [eapply f_over, e|]. unfold declare_or_overwrite_local in e.
  unfold ebind at 1, eget in e. destruct (r_scopes s) as [|tp rest]; [congruence|]. rewrite hl in e.
  unfold ebind, set_scopes, emod in e.
  match type of e with _ ?st = _ => assert (B : bound l st v) end.
  { exists (put str_eqb l v tp), rest. split; [reflexivity|]. apply (find_put_same _ str_eqb_spec). }
  destruct b; [|injection e as _ <-; exact B]. eapply so_bound; [eapply s_reference_local, e|exact B].
Qed.
Lemma typed_firm : forall v x r s s', firm s s' -> wf (r_arena s) -> typed v x r s -> typed v x r s'.
Proof.
  intros v x r s s' h hw (d & rs & h1 & h2 & h3). destruct (h hw) as [_ k]. destruct (k _ _ h1) as (d' & l & k1 & k2 & k3).
  exists d', (rs ++ l). split; [exact k1|]. split; [congruence|]. rewrite k3, h3. reflexivity.
Qed.
Lemma doc_local : forall (e : option Node) file i,
  match e with Some (NDocCommentParam name _ _) => reference_local file name i | _ => eret tt end = eret tt \/
  exists t, match e with Some (NDocCommentParam name _ _) => reference_local file name i | _ => eret tt end = reference_local file t i.
Proof. intros e file i. destruct e as [[]|]; eauto. Qed.

(** A parameter holds an object of the class that is written as its type. *)
Theorem C58_parameter_partial : forall fuel file ty name a b c d e f parent s o s' x tr k,
  n_visit fuel file (NFunctionArgument ty name a b c d e f) parent s = Done o s' ->
  wf (r_arena s) -> r_scopes s <> [] -> t_label name = Some x -> has_parameter s x tr -> names_class s tr parent k ->
  wf (r_arena s') /\ holds x k s'.
Proof.
  intros fuel file ty name a b c d e f parent s o s' x tr k h hw hs hl (l1 & i & l2 & di & r & rs & q1 & q2 & q3 & q4 & q5 & q6) hc.
  cbn [n_visit] in h. unfold ebind at 1, eget in h. take h as e1. rewrite hl in e1.
  assert (E1 : x0 = Some i /\ t = s).
  { eapply find_kid_first; [exact q1|exact q2| | |exact e1].
    - cbv beta. rewrite q3. destruct (str_eqb_spec x x); congruence.
    - intros j dj hj hd. cbv beta. specialize (q6 j dj hj hd). destruct (str_eqb_spec (sym_name dj) x); congruence. }
  destruct E1 as [-> ->].
  unfold ebind at 1, e_data in h. cbn [the_arena rst_arena] in h. rewrite q2, q4 in h.
  take h as e2. take h as e3. take h as e4. take h as e5. injection h as _ <-.
  assert (F : firm s t /\ soft s t).
  { split; [revert e2; apply (v_map _ firm_order); intros; apply f_resolved_ref|
            revert e2; apply (v_map _ soft_order); intros; apply s_resolved_ref]. }
  destruct F as [F S]. cbn [emap] in e2. take e2 as g1. take e2 as g2. injection e2 as <- <-.
  rename x4 into ref, x5 into refs. unfold resolved_ref in g1. take g1 as g3. rewrite q5 in g3.
  pose proof (resolves _ _ _ _ _ _ _ _ hc g3) as hk. subst.
  assert (hx1 : sr_node ref = Some k).
  { unfold sref_node, obind in g1. destruct (tref_range _); [|discriminate g1]. injection g1 as <- <-. reflexivity. }
  destruct (F hw) as [w1 k1]. destruct (k1 _ _ q2) as (di' & l & k2 & k3 & _).
  unfold e_update in e3. destruct (update _ _ _) as [ar|] eqn:eu; [|discriminate e3]. injection e3 as _ <-.
  destruct (data_update _ _ _ _ w1 eu) as [w2 k4].
  set (u := with_arena ar t4) in *.
  assert (T : typed i (sym_name di) ref u).
  { eexists _, refs. cbn. rewrite k4, N.eqb_refl, k2. split; [reflexivity|]. split; [unfold sym_name in *; cbn; congruence|reflexivity]. }
  destruct (declares_bound _ _ _ _ _ _ _ _ hl (so_some _ _ S hs : r_scopes u <> []) e4) as (F1 & B1).
  assert (F2 : firm t1 t2 /\ soft t1 t2).
  { clear - e5. destruct (doc_local e file i) as [q|(t & q)]; rewrite q in e5; clear q.
    - injection e5 as _ <-. split; [apply firm_order|apply soft_order].
    - split; [eapply f_reference_local, e5|eapply s_reference_local, e5]. }
  destruct F2 as [F2 S2].
  assert (w3 : wf (r_arena t1)) by (apply F1; exact w2).
  split; [apply F2; exact w3|].
  destruct (typed_firm _ _ _ _ _ F2 w3 (typed_firm _ _ _ _ _ F1 w2 T)) as (d0 & rs0 & z1 & z2 & z3).
  exists i, d0, ref, rs0. split; [apply (so_bound _ _ S2); exact B1|]. auto.
Qed.

(** ** Lookups leave the variables as they are *)
Definition same_scopes (s s' : rst) : Prop := r_scopes s' = r_scopes s.
Lemma scopes_order : order same_scopes.
Proof. constructor; unfold same_scopes; congruence. Qed.
Lemma c_data : forall i, every same_scopes (e_data i).
Proof. intros i s x s' e. unfold e_data in e. destruct (data _ _); [injection e as _ <-; reflexivity|discriminate e]. Qed.
Lemma c_kids : forall i, every same_scopes (e_kids i).
Proof. intros i s x s' e. unfold e_kids in e. destruct (kids _ _); [injection e as _ <-; reflexivity|discriminate e]. Qed.
Lemma c_top : forall i, every same_scopes (e_top i).
Proof. intros i s x s' e. unfold e_top in e. destruct (top _ _); [injection e as _ <-; reflexivity|discriminate e]. Qed.
Ltac cs := repeat (cbv beta; match goal with
  | |- forall _, every _ _ => intros ?
  | |- every _ (ebind _ _) => apply (v_bind _ scopes_order); [|intros ?]
  | |- every _ (eret _) => apply (v_ret _ scopes_order)
  | |- every _ (match ?x with _ => _ end) => destruct x
  | |- every _ epanic => apply v_panic
  | |- every _ efuel => apply v_fuel
  | |- every _ (eopt _) => apply (v_opt _ scopes_order)
  | |- every _ (eget _) => apply (v_get _ scopes_order)
  | |- every _ (cache_put _ _) => let e := fresh in intros ? ? ? e; injection e as _ <-; reflexivity
  | |- every _ (note _) => let e := fresh in intros ? ? ? e; injection e as _ <-; reflexivity
  | |- every _ (reference _ _ _) => let e := fresh in intros ? ? ? e; injection e as _ <-; reflexivity
  | |- every _ (e_data _) => apply c_data
  | |- every _ (e_kids _) => apply c_kids
  | |- every _ (e_top _) => apply c_top
  | |- every _ (efold _ _ _) => apply (v_fold _ scopes_order); intros ? ?
  | |- every _ (efind _ _) => apply (v_find _ scopes_order); intros ?
  | h : _ |- _ => apply h
  end).
Lemma c_resolve : forall fuel tr ctx b, every same_scopes (resolve_type_ref fuel tr ctx b).
Proof.
  induction fuel as [|fuel IH]; intros tr ctx b; cbn [resolve_type_ref]; [apply v_fuel|].
  unfold unique_parent, parent_nodes, current_namespace. cs.
Qed.
Lemma c_resolve_all : forall fuel ctx l, every same_scopes (resolve_all (resolve_type_ref fuel) ctx l).
Proof. intros fuel ctx l. pose proof (c_resolve fuel). induction l; cbn [resolve_all]; cs. Qed.
Lemma c_all : forall fuel ctx, every same_scopes (get_all_symbols fuel ctx).
Proof.
  induction fuel as [|fuel IH]; intros ctx; cbn [get_all_symbols]; [apply v_fuel|].
  pose proof (c_resolve fuel) as HR. pose proof (c_resolve_all fuel) as HA.
  unfold get_imports, trait_symbols, inherited_symbols, parent_nodes, own_symbols, apply_insteadof, apply_as. cbv zeta. cs.
Qed.
Lemma c_member_type : forall fuel f m c l, every same_scopes (member_type fuel f m c l).
Proof.
  intros fuel f m c l. pose proof (c_resolve fuel) as HR. induction l; cbn [member_type]; [cs|].
  unfold unique_parent, parent_nodes. cs.
Qed.
Lemma c_follow : forall fuel file fname minimal chain root, every same_scopes (follow_chain fuel file fname minimal root chain).
Proof.
  intros fuel file fname minimal chain. pose proof (c_all fuel). pose proof c_member_type. unfold reference_local.
  induction chain; intros root; cbn [follow_chain]; unfold reference_local; cs.
Qed.
Lemma near_scopes : forall s s', near s s' -> r_scopes s' = r_scopes s.
Proof.
  intros s s' (s1 & h1 & h2). destruct h2 as (_ & _ & h2 & _). rewrite <- h2. clear h2.
  induction h1 as [|s1 s2 fuel c ctx d tr o h1 IH hd hi e]; [reflexivity|]. rewrite <- IH. eapply c_resolve, e.
Qed.
Lemma object_value : forall fuel file s e c x s', object s e c -> resolve_member_type fuel file e s = Done x s' ->
  x = Some c /\ r_scopes s' = r_scopes s.
Proof.
  intros fuel file s e c x s' ho h. destruct ho as [e c inside hr|node e members m ms p c inside h1 h2 h3 h4 h5 h6|op tr c ht hc|op tr a b c ht hc].
  - destruct (access_follow _ _ _ _ _ _ _ _ _ _ (Chain_none e) hr h) as (f1 & fname & s1 & hn & _ & e1).
    cbn [follow_chain] in e1. injection e1 as <- <-. split; [reflexivity|]. apply near_scopes, hn.
  - split; [apply (C49_known_partial _ _ _ _ _ _ _ _ _ _ _ _ _ h1 h2 h3 h4 h5 h), h6|].
    destruct (access_follow _ _ _ _ _ _ _ _ _ _ h1 h2 h) as (f1 & fname & s1 & hn & _ & e1).
    apply c_follow in e1. rewrite e1. apply near_scopes, hn.
  - destruct fuel as [|fuel]; [discriminate h|]. cbn [resolve_member_type] in h. take h as e1.
    destruct fuel as [|fuel]; [discriminate e1|]. cbn [chain_root] in e1. destruct fuel as [|fuel]; [discriminate e1|]. cbn [chain_root] in e1.
    unfold ebind at 1, eget in e1. take e1 as e2. pose proof (resolves _ _ _ _ _ _ _ _ hc e2). subst.
    injection e1 as <- <-. apply c_resolve in e2. unfold ebind, eget in h.
    destruct (e_top (r_container t0) t0) as [f1 u1| |] eqn:q1; try discriminate h. apply c_top in q1.
    destruct (e_data f1 u1) as [f2 u2| |] eqn:q2; try discriminate h. apply c_data in q2.
    cbn [follow_chain] in h. injection h as <- <-. unfold same_scopes in *. split; [reflexivity|congruence].
  - destruct fuel as [|fuel]; [discriminate h|]. cbn [resolve_member_type] in h. take h as e1.
    do 3 (destruct fuel as [|fuel]; [discriminate e1|]; cbn [chain_root emap] in e1).
    unfold ebind at 1, eret at 1 in e1.
    unfold ebind at 1, eget in e1. take e1 as e2. pose proof (resolves _ _ _ _ _ _ _ _ hc e2). subst.
    injection e1 as <- <-. apply c_resolve in e2. unfold ebind, eget in h.
    destruct (e_top (r_container t0) t0) as [f1 u1| |] eqn:q1; try discriminate h. apply c_top in q1.
    destruct (e_data f1 u1) as [f2 u2| |] eqn:q2; try discriminate h. apply c_data in q2.
    cbn [follow_chain] in h. injection h as <- <-. unfold same_scopes in *. split; [reflexivity|congruence].
Qed.

(** A symbol of a new variable *)
Lemma new_local_data : forall d s v s', new_local d s = Done v s' -> wf (r_arena s) ->
  wf (r_arena s') /\ data (r_arena s') v = Some d /\ r_scopes s' = r_scopes s.
Proof.
  intros d s v s' e hw. unfold new_local in e. take e as e1. unfold ebind at 1, eget in e. take e as e2. injection e as <- <-.
  unfold e_new in e1. destruct (new_node d (the_arena s)) as [i a] eqn:en. injection e1 as <- <-.
  destruct (data_new _ _ _ _ hw en) as (h1 & h2 & _). unfold e_append in e2. cbn [the_arena rst_arena r_arena with_arena] in e2.
  destruct (append _ _ _) as [a'|] eqn:ea; [|discriminate e2]. injection e2 as _ <-.
  destruct (data_append _ _ _ _ h1 ea) as (h3 & h4). cbn. rewrite h4. auto.
Qed.
Lemma token_symbol : forall t x d, symbol_of_token t = Some d -> t_type t = TVariable -> t_label t = Some x -> sym_name d = x.
Proof.
  intros t x d h ht hl. unfold symbol_of_token, obind in h. destruct (token_range t); [|discriminate h].
  unfold display_token in h. rewrite hl, ht in h. injection h as <-. reflexivity.
Qed.

(** A variable that is assigned for the first time holds what it is assigned. *)
Theorem C58_assigned_partial : forall fuel file t op right_ parent s o s' x c,
  n_visit fuel file (NBinary (NVariable t) op right_) parent s = Done o s' -> t_type op = TAssignment ->
  wf (r_arena s) -> t_type t = TVariable -> t_label t = Some x -> r_scopes s <> [] -> (forall v, ~ bound x s v) ->
  object s right_ c -> wf (r_arena s') /\ holds x c s'.
Proof.
  intros fuel file t op right_ parent s o s' x c e hop hw ht hl hs hb hc. cbn [n_visit] in e.
  destruct (tt_eqb_spec (t_type op) TAssignment); [|contradiction]. take e as e1.
  destruct (object_value _ _ _ _ _ _ _ hc e1) as [-> hsc]. apply f_member in e1. destruct (e1 hw) as [w1 _].
  take e as e2. apply eopt_done in e2 as [e2 ->]. take e as e3.
  destruct (new_local_data _ _ _ _ e3 w1) as (w2 & d2 & s2).
  take e as e4. unfold declare_local_if_new in e4. unfold ebind at 1, eget in e4. rewrite s2, hsc in e4.
  destruct (r_scopes s) as [|tp rest] eqn:es; [congruence|]. rewrite hl in e4.
  destruct (findS x tp) as [w|] eqn:ef; [exfalso; apply (hb w); exists tp, rest; auto|].
  unfold ebind at 1, set_scopes, emod in e4. take e4 as e5. injection e4 as <- <-.
  take e as e6. apply eopt_done in e6 as [e6 ->]. injection e6 as <-. rewrite N.eqb_refl in e. injection e as _ <-.
  match type of e5 with _ ?st = _ => set (u := st) in * end.
  assert (B : bound x u x1) by (exists (put str_eqb x x1 tp), rest; split; [reflexivity|apply (find_put_same _ str_eqb_spec)]).
  assert (T : exists r, typed x1 x r u /\ sr_node r = Some c).
  { unfold assigned_symbol, obind in e2. destruct (symbol_of_token t) as [d|] eqn:ed; [|discriminate e2].
    destruct (sref_node _ _) as [r|] eqn:er; [|discriminate e2]. injection e2 as <-. exists r. split.
    - eexists _, []. split; [exact d2|]. split; [|reflexivity]. exact (token_symbol _ _ _ ed ht hl).
    - unfold sref_node, obind in er. destruct (tref_range _); [|discriminate er]. injection er as <-. reflexivity. }
  destruct T as (r & T & hr). pose proof (f_reference_local _ _ _ _ _ _ e5) as F. split; [apply F; exact w2|].
  destruct (typed_firm _ _ _ _ _ F w2 T) as (d0 & rs0 & z1 & z2 & z3).
  exists x1, d0, r, rs0. split; [eapply so_bound; [eapply s_reference_local, e5|exact B]|]. auto.
Qed.

(** The element of a collection is an object of the class of which the
    collection has elements. *)
Theorem C58_item_partial : forall fuel file a b t e k op item f body parent s o s' x c y v d r rs,
  n_visit fuel file (NForEachStatement a b (NVariable t) e (NArrayElement k op (NVariable item)) f body) parent s = Done o s' ->
  wf (r_arena s) -> t_label t = Some y -> y <> lit "this" -> bound y s v -> data (r_arena s) v = Some d ->
  y_types d = r :: rs -> multiple (sr_type r) = true -> sr_node r = Some c ->
  r_scopes s <> [] -> t_type item = TVariable -> t_label item = Some x ->
  wf (r_arena s') /\ holds x c s'.
Proof.
  intros fuel file a b t e k op item f body parent s o s' x c y v d r rs h hw hy hny hg hd ht hm hr hs hi hl. cbn [n_visit] in h.
  take h as e1. rewrite (local_bound _ _ _ _ hy hny hg) in e1. injection e1 as <- <-. unfold ebind at 1, e_data in h. cbn [the_arena rst_arena] in h. rewrite hd in h.
  take h as e2. apply eopt_done in e2 as [e2 ->]. take h as e3. apply eopt_done in e3 as [e3 ->]. take h as e4. take h as e5. injection h as _ <-.
  destruct (new_local_data _ _ _ _ e4 hw) as (w2 & d2 & s2).
  assert (hs2 : r_scopes t0 <> []) by (rewrite s2; exact hs).
  destruct (declares_bound _ _ _ _ _ _ _ _ hl hs2 e5) as (F & B). split; [apply F; exact w2|].
  rewrite ht in e2. cbn [map seq_opt] in e2. unfold item_type at 1 in e2. rewrite hr, hm in e2.
  destruct (sref_node _ c) as [q|] eqn:eq; [|discriminate e2]. cbn [obind] in e2.
  destruct (seq_opt _) as [qs|]; [|discriminate e2]. injection e2 as <-.
  assert (T : typed x2 x q t0).
  { eexists _, qs. split; [exact d2|]. split; [|reflexivity]. exact (token_symbol _ _ _ e3 hi hl). }
  destruct (typed_firm _ _ _ _ _ F w2 T) as (d0 & rs0 & z1 & z2 & z3).
  exists x2, d0, q, rs0. split; [exact B|]. split; [exact z1|]. split; [exact z2|]. split; [exact z3|].
  unfold sref_node, obind in eq. destruct (tref_range _); [|discriminate eq]. injection eq as <-. reflexivity.
Qed.

(** The variable of a catch block has exactly the types that are written
    there ... *)
Theorem C58_caught_partial : forall fuel file a b types var e body parent s o s' x,
  n_visit fuel file (NCatchBlock a b types var e body) parent s = Done o s' ->
  wf (r_arena s) -> r_scopes s <> [] -> t_type var = TVariable -> t_label var = Some x ->
  wf (r_arena s') /\
  exists v d, bound x s' v /\ data (r_arena s') v = Some d /\ sym_name d = x /\
    map sr_type (y_types d) = flat_map get_type_ref types /\ Forall (fun r => sr_node r = None) (y_types d).
Proof.
  intros fuel file a b types var e body parent s o s' x h hw hs hi hl. cbn [n_visit] in h.
  take h as e2. apply eopt_done in e2 as [e2 ->]. take h as e3. apply eopt_done in e3 as [e3 ->]. take h as e4. take h as e5. injection h as _ <-.
  destruct (new_local_data _ _ _ _ e4 hw) as (w2 & d2 & s2).
  assert (hs2 : r_scopes t <> []) by (rewrite s2; exact hs).
  destruct (declares_bound _ _ _ _ _ _ _ _ hl hs2 e5) as (F & B). split; [apply F; exact w2|].
  assert (A : r_arena t0 = r_arena t).
  { clear - e5. unfold declare_or_overwrite_local in e5. unfold ebind at 1, eget in e5.
    destruct (r_scopes t), (t_label var); injection e5 as _ <-; reflexivity. }
  eexists _, _. split; [exact B|]. rewrite A. split; [exact d2|]. split; [exact (token_symbol _ _ _ e3 hi hl)|]. cbn [y_types with_types].
  clear - e2. revert x0 e2. unfold srefs. induction (flat_map get_type_ref types) as [|t l IH]; intros r e; cbn [map seq_opt] in e.
  - injection e as <-. auto.
  - destruct (sref_type t) as [q|] eqn:eq; [|discriminate e]. cbn [obind] in e. destruct (seq_opt (map sref_type l)) as [qs|]; [|discriminate e].
    injection e as <-. destruct (IH _ eq_refl) as [h1 h2]. unfold sref_type, obind in eq. destruct (tref_range t); [|discriminate eq].
    injection eq as <-. cbn [map sr_type]. split; [f_equal; exact h1|]. constructor; auto.
Qed.

(** ... and so is an object of the class of which the first one is the name. *)
Lemma names_like : forall s s' tr anchor c, like s s' -> names_class s tr anchor c -> names_class s' tr anchor c.
Proof.
  intros s s' tr anchor c (h1 & h2 & h3 & h4 & h5 & h6) (w & full & d & [k1 k2 k3 k4] & q1 & q2). exists w, full, d.
  split; [|rewrite <- h1, <- h2; auto]. constructor; rewrite <- ?h1, <- ?h6; auto.
Qed.
Theorem C58_first_type_partial : forall fuel file t s o s' x v d r rs c,
  resolve_member_type fuel file (NVariable t) s = Done o s' -> t_label t = Some x -> x <> lit "this" ->
  bound x s v -> data (r_arena s) v = Some d -> y_types d = r :: rs -> sr_node r = None ->
  names_class s (sr_type r) v c -> o = Some c.
Proof.
  intros fuel file t s o s' x v d r rs c e hl hn hb hd ht hr hc. destruct fuel as [|fuel]; [discriminate e|].
  cbn [resolve_member_type] in e. take e as e1. destruct fuel as [|fuel]; [discriminate e1|]. cbn [chain_root] in e1.
  unfold ebind at 1 in e1. rewrite (local_bound _ _ _ _ hl hn hb) in e1. take e1 as e2. rewrite hl in e1.
  destruct (str_eqb_spec x (lit "this")); [contradiction|]. destruct (like_local _ _ _ _ _ _ e2) as [hk _].
  unfold ebind at 1, e_data in e1. cbn [the_arena rst_arena] in e1. rewrite <- (proj1 hk), hd, ht in e1. cbn [variable_type] in e1.
  rewrite hr in e1. unfold ebind in e1.
  destruct (resolve_type_ref fuel (sr_type r) v true t1) as [y u| |] eqn:e3; try discriminate e1.
  pose proof (resolves _ _ _ _ _ _ _ _ (names_like _ _ _ _ _ hk hc) e3). subst. injection e1 as <- <-.
  unfold ebind, eget in e. destruct (e_top _ _) as [f1 u1| |]; try discriminate e. destruct (e_data _ _) as [f2 u2| |]; try discriminate e.
  injection e as <- _. reflexivity.
Qed.

(** A function with a parameter: the whole body is analysed knowing the class
    of its type, provided that no other parameter has the name.  The state
    [s1] is the one in which the parameters before it have been looked at. *)
Theorem C58_function_partial : forall fuel file op l1 arg l2 cp ret body doc parent s s' x ty name a b c d e f,
  n_traverse fuel file (NFunctionDefinitionStatement op (Some (l1 ++ arg :: l2)) cp ret (Some body) doc) parent s = Done tt s' ->
  arg = NFunctionArgument ty name a b c d e f -> t_label name = Some x -> wf (r_arena s) -> r_scopes s <> [] ->
  (forall k, In k l2 \/ ret = Some k \/ body = k -> ~ rebinds x k /\ no_parameter x k) ->
  exists fuel0 s0 s1, n_visit fuel0 file (NFunctionDefinitionStatement op (Some (l1 ++ arg :: l2)) cp ret (Some body) doc) parent s = Done (Some (r_container s)) s0 /\
  eiter (fun k => n_traverse fuel0 file k (r_container s)) l1 s0 = Done tt s1 /\
  r_container s1 = r_container s /\ forall tr k, has_parameter s1 x tr -> names_class s1 tr (r_container s1) k ->
  forall m, within body m ->
  exists fuel1 p s2 s3, n_traverse fuel1 file m p s2 = Done tt s3 /\ wf (r_arena s2) /\ holds x k s2 /\ grown s3 s'.
Proof.
  intros fuel file op l1 arg l2 cp ret body doc parent s s' x ty name a b c d e f h ha hl hw hs hk.
  destruct fuel as [|fuel]; [discriminate h|]. cbn [n_traverse n_before n_after] in h.
  unfold ebind at 1, eret at 1 in h. take h as e1. take h as e2. injection h as <-.
  assert (V : x0 = Some (r_container t) /\ wf (r_arena t) /\ r_scopes t <> [] /\ r_container t = r_container s).
  { assert (A : ~ an_argument (NFunctionDefinitionStatement op (Some (l1 ++ arg :: l2)) cp ret (Some body) doc)) by (intros []).
    assert (B : ~ special (NFunctionDefinitionStatement op (Some (l1 ++ arg :: l2)) cp ret (Some body) doc)) by (intros []).
    split; [|split; [apply (f_visit _ _ _ _ A _ _ _ e1 hw)|]; pose proof (visit_soft _ _ _ _ B _ _ _ e1) as [S1 S2 S3 S4 S5]; auto].
    cbn [n_visit] in e1. take e1 as e0. unfold ebind, eget in e1. injection e1 as <- <-. reflexivity. }
  destruct V as (-> & w1 & hs1 & hc1). cbn [children opt_nodes opt_list] in e2. rewrite <- app_assoc in e2. cbn [app] in e2. destruct x1.
  apply iter_at in e2 as (s1 & s2 & e3 & e4 & e5).
  assert (P : wf (r_arena s1) /\ r_scopes s1 <> [] /\ r_container s1 = r_container t).
  { split; [|split].
    - clear - e3 w1. revert e3. generalize (r_container t) as p. revert t w1. induction l1 as [|q l1 IH]; intros t w1 p e3; cbn [eiter] in e3.
      + injection e3 as <-. exact w1.
      + take e3 as g1. destruct x. eapply IH; [|exact e3]. eapply traverse_wf; eassumption.
    - destruct (r_scopes t) as [|tp rest] eqn:et; [congruence|].
      pose proof (iter_framed fuel file (r_container t) l1 t tp rest [] et) as k. rewrite e3 in k.
      destruct k as (tp' & k & _). rewrite k. discriminate.
    - clear - e3. remember (r_container t) as p eqn:hp. revert t hp e3. induction l1 as [|q l1 IH]; intros t hp e3; cbn [eiter] in e3.
      + injection e3 as <-. auto.
      + take e3 as g1. destruct x. eapply IH; [|exact e3]. symmetry. eapply C31_place; eauto. }
  destruct P as (w2 & hs2 & hc2). exists fuel, t, s1.
  split; [rewrite e1; congruence|]. split; [rewrite <- hc1; exact e3|]. split; [congruence|]. intros tr k hp hn m hm.
  subst arg. destruct fuel as [|fuel]; [discriminate e4|].
  assert (A : wf (r_arena s2) /\ holds x k s2).
  { cbn [n_traverse n_before n_after] in e4. unfold ebind at 1, eret at 1 in e4. take e4 as g1.
    assert (x0 = None).
    { cbn [n_visit] in g1. unfold ebind at 1, eget in g1. take g1 as g2. destruct x1; [|injection g1 as <- _; reflexivity].
      take g1 as g3. take g1 as g4. take g1 as g5. take g1 as g6. take g1 as g7. injection g1 as <- _. reflexivity. }
    subst x0. injection e4 as <-. rewrite hc2 in hn. eapply C58_parameter_partial; eassumption. }
  destruct A as [w3 k3].
  rewrite app_assoc in e5.
  apply iter_at in e5 as (s3 & s4 & e6 & e7 & e8).
  destruct (iter_holds _ _ _ _ _ _ _ _ _ e6 w3 k3) as [w4 k4].
  { intros q hq. apply in_app_iff in hq as [hq|hq]; [apply hk; auto|]. destruct ret as [r|]; [|destruct hq].
    destruct hq as [<-|[]]. apply hk. auto. }
  destruct (hk body) as [r1 r2]; [auto|].
  destruct (C58_body_partial _ _ _ _ _ _ _ _ e7 w4 k4 r1 r2 m hm) as (f1 & p & t1 & t2 & h1 & h2 & h3 & h4).
  exists f1, p, t1, t2. split; [exact h1|]. split; [exact h2|]. split; [exact h3|].
  eapply (or_trans _ grown_order); [exact h4|]. eapply iter_grown, e8.
Qed.
End Types.

(** * Cases *)

Definition text58 : string :=
  "<?php class A { public function a() { } } function f(A $p, $q) { $x = new A; $p->a(); try { } catch (A $e) { } foreach ($l as $i) { } }".
Definition indexed58 : bst :=
  state_after [(disk2 "<?php" text58, EvIndex [pA; pB]); (disk2 "<?php" text58, EvInitialized)].
Definition nodes58 : list Node := Eval vm_compute in match syntax 400 (lit text58) with Some l => l | None => [] end.
(** In the function [f], with the given variables *)
Definition state58 (scope : list (str * N)) : rst := mkRst (b_arena indexed58) (b_global indexed58) [scope] None 5 [] [] [].
Lemma wf58 : wf (b_arena indexed58).
Proof. apply (wi_wf _ (reachable_winv _ (state_after_reachable _))). Qed.

Ltac names_A := eexists (Written false (lit "A") []), [lit "A"], _; split; [constructor|split; vm_compute; reflexivity];
  [assumption || apply wf58
  |vm_compute; apply spells_relative; [split; reflexivity|constructor]
  |vm_compute; let e := fresh in intros [e|[e|[e|[]]]]; discriminate e
  |exists 1; do 3 eexists; exists [], [];
   split; [vm_compute; reflexivity|]; split; [vm_compute; reflexivity|]; split; [vm_compute; reflexivity|];
   split; [vm_compute; reflexivity|]; split; [vm_compute; reflexivity|];
   split; [vm_compute; constructor|]; split; [constructor|]; split;
   [eapply placed_global; [vm_compute; reflexivity|vm_compute; reflexivity|]|split; [constructor|apply means_local; intros ? ? []]];
   let hi := fresh in let hd := fresh in
   intros ? ? hi hd; repeat (destruct hi as [<-|hi]; [vm_compute in hd; injection hd as <-; discriminate|]); destruct hi].

(** The parameter [p] *)
Definition function58 : Node := Eval vm_compute in nth 1 nodes58 (NVariable (mkToken 0 0 TVariable None None)).
Definition argument58 : Node :=
  Eval vm_compute in match function58 with
  | NNamedFunctionDefinitionStatement _ _ _ (NFunctionDefinitionStatement _ (Some (a :: _)) _ _ _ _) _ => a
  | n => n
  end.
Definition body58 : Node :=
  Eval vm_compute in match function58 with
  | NNamedFunctionDefinitionStatement _ _ _ (NFunctionDefinitionStatement _ _ _ _ (Some b) _) _ => b
  | n => n
  end.
(** No parameter is called [p] but that one: the other parameter and the body
    do not bind the name. *)
Example C58_parameter_case : exists ty name a b c d e f o s' tr,
  argument58 = NFunctionArgument ty name a b c d e f /\ n_visit 50 1 argument58 5 (state58 []) = Done o s' /\
  wf (r_arena (state58 [])) /\ t_label name = Some (lit "p") /\ has_parameter (state58 []) (lit "p") tr /\
  names_class (state58 []) tr 5 2.
Proof.
  do 11 eexists. split; [reflexivity|]. split; [vm_compute; reflexivity|]. split; [apply wf58|]. split; [reflexivity|]. split.
  - exists [], 6, [7]. do 3 eexists. split; [vm_compute; reflexivity|]. split; [vm_compute; reflexivity|].
    split; [reflexivity|]. split; [reflexivity|]. split; [reflexivity|]. intros j e [].
  - names_A.
Qed.

Definition definition58 : Node :=
  Eval vm_compute in match function58 with NNamedFunctionDefinitionStatement _ _ _ d _ => d | n => n end.

(** A test for [no_parameter] *)
Fixpoint bare (fuel : nat) (x : str) (n : Node) : bool :=
  match fuel with
  | O => false
  | S fuel =>
      match n with NFunctionArgument _ name _ _ _ _ _ _ =>
        match t_label name with Some l => negb (str_eqb l x) | None => true end | _ => true end &&
      forallb (bare fuel x) (children n)
  end%bool.
Lemma bare_ok : forall x fuel n, bare fuel x n = true -> no_parameter x n.
Proof.
  intros x fuel. induction fuel as [|fuel IH]; intros n h; [discriminate h|]. cbn [bare] in h.
  apply Bool.andb_true_iff in h as [h1 h2]. rewrite forallb_forall in h2.
  intros ty name a b c d e f hs. inversion hs as [m|m k m' hi hk]; subst.
  - intros hl. rewrite hl in h1. destruct (str_eqb_spec x x); [discriminate h1|congruence].
  - eapply IH; [apply h2; exact hi|exact hk].
Qed.

(** The statements of the function: an assignment, a call of a method, and two
    that bind variables *)
Definition statements58 : list Node :=
  Eval vm_compute in match body58 with NBlock _ l _ => l | n => [n] end.
Definition statement58 (i : nat) : Node := nth i statements58 body58.
Definition expression58 (i : nat) : Node := match statement58 i with NExpressionStatement e => e | n => n end.

Example C58_function_case : exists op l2 cp ret body doc s',
  definition58 = NFunctionDefinitionStatement op (Some ([] ++ argument58 :: l2)) cp ret (Some body) doc /\
  n_traverse 50 1 definition58 5 (state58 []) = Done tt s' /\ l2 <> [] /\
  (forall k, In k l2 \/ ret = Some k \/ body = k -> ~ rebinds (lit "p") k /\ no_parameter (lit "p") k) /\
  within body (statement58 1) /\
  n_visit 49 1 definition58 5 (state58 []) = Done (Some (r_container (state58 []))) (state58 []).
Proof.
  do 7 eexists. split; [reflexivity|]. split; [vm_compute; reflexivity|]. split; [discriminate|].
  split; [intros k [[<-|[]]|[hk|<-]]; [| discriminate hk|]; (split; [apply (steady_ok _ 50); vm_compute; reflexivity|apply (bare_ok _ 50); vm_compute; reflexivity])|].
  split; [|vm_compute; reflexivity].
  eapply wi_in; [|right; left; reflexivity|apply wi_here]. repeat split.
Qed.

(** [$x = new A], and what is analysed after it *)
Definition assigned58 : rst :=
  Eval vm_compute in match n_visit 50 1 (expression58 0) 5 (state58 []) with Done _ s => s | _ => state58 [] end.
Example C58_assigned_case : exists t op right_ o,
  expression58 0 = NBinary (NVariable t) op right_ /\ n_visit 50 1 (expression58 0) 5 (state58 []) = Done o assigned58 /\
  t_type op = TAssignment /\ t_type t = TVariable /\ t_label t = Some (lit "x") /\
  (forall v, ~ bound (lit "x") (state58 []) v) /\ object (state58 []) right_ 2.
Proof.
  do 4 eexists. split; [vm_compute; reflexivity|]. split; [vm_compute; reflexivity|]. split; [reflexivity|].
  split; [reflexivity|]. split; [reflexivity|]. split; [intros v (tp & rest & e & q); vm_compute in e; injection e as <- <-; discriminate q|].
  apply object_new; [reflexivity|]. names_A.
Qed.
Example C58_stays_case : exists s', holds (lit "x") 2 assigned58 /\
  n_traverse 50 1 body58 5 assigned58 = Done tt s' /\ ~ rebinds (lit "x") body58 /\ no_parameter (lit "x") body58 /\
  holds (lit "x") 2 s'.
Proof.
  eexists. split; [eexists 8, _, _, _; split; [eexists _, _; split; reflexivity|]; vm_compute; repeat split|].
  split; [vm_compute; reflexivity|]. split; [apply (steady_ok _ 50); vm_compute; reflexivity|].
  split; [apply (bare_ok _ 50); vm_compute; reflexivity|].
  eexists 8, _, _, _; split; [eexists _, _; split; reflexivity|]; vm_compute; repeat split.
Qed.

(** The caught [$e]: of the class [A], once it is looked up *)
Definition catch58 : Node :=
  Eval vm_compute in match statement58 2 with NTryCatch _ _ (c :: _) _ => c | n => n end.
Example C58_caught_case : exists a b types var e body o s' v d r,
  catch58 = NCatchBlock a b types var e body /\ n_visit 50 1 catch58 5 (state58 []) = Done o s' /\
  t_type var = TVariable /\ t_label var = Some (lit "e") /\ bound (lit "e") s' v /\ data (r_arena s') v = Some d /\
  y_types d = [r] /\ sr_node r = None /\ names_class s' (sr_type r) v 2.
Proof.
  destruct (n_visit 50 1 catch58 5 (state58 [])) as [o s'| |] eqn:h; try (vm_compute in h; discriminate h).
  assert (w : wf (r_arena s')).
  { unfold catch58 in h. eapply C58_caught_partial; [exact h|apply wf58|discriminate|reflexivity|reflexivity]. }
  vm_compute in h. injection h as <- <-.
  eexists _, _, _, _, _, _, _, _, 8, _, _. split; [reflexivity|]. split; [reflexivity|]. split; [reflexivity|]. split; [reflexivity|].
  split; [eexists _, _; split; reflexivity|]. split; [vm_compute; reflexivity|]. split; [reflexivity|]. split; [reflexivity|]. names_A.
Qed.

(** The elements of [$q], of which the documentation says [A[]] *)
Definition text58l : string :=
  "<?php class A { public function a() { } } /** @param A[] $q */ function f($q) { foreach ($q as $i) { $i->a(); } }".
Definition indexed58l : bst :=
  state_after [(disk2 "<?php" text58l, EvIndex [pA; pB]); (disk2 "<?php" text58l, EvInitialized)].
Definition nodes58l : list Node := Eval vm_compute in match syntax 400 (lit text58l) with Some l => l | None => [] end.
Definition argument58l : Node :=
  Eval vm_compute in match nth 1 nodes58l body58 with
  | NNamedFunctionDefinitionStatement _ _ _ (NFunctionDefinitionStatement _ (Some (a :: _)) _ _ _ _) _ => a
  | n => n
  end.
Definition foreach58l : Node :=
  Eval vm_compute in match nth 1 nodes58l body58 with
  | NNamedFunctionDefinitionStatement _ _ _ (NFunctionDefinitionStatement _ _ _ _ (Some (NBlock _ (f :: _) _)) _) _ => f
  | n => n
  end.
(** After the parameter *)
Definition state58l : rst :=
  Eval vm_compute in
  let s := mkRst (b_arena indexed58l) (b_global indexed58l) [[]] None 5 [] [] [] in
  match n_visit 50 1 argument58l 5 s with Done _ s' => s' | _ => s end.
Lemma wf58l : wf (r_arena state58l).
Proof.
  set (s := mkRst (b_arena indexed58l) (b_global indexed58l) [[]] None 5 [] [] []).
  assert (w : wf (r_arena s)) by apply (wi_wf _ (reachable_winv _ (state_after_reachable _))).
  destruct (n_traverse 51 1 argument58l 5 s) as [o s'| |] eqn:h; try (vm_compute in h; discriminate h).
  destruct o. pose proof (traverse_wf _ _ _ _ _ _ _ h w) as k. vm_compute in h. injection h as <-. exact k.
Qed.
Example C58_item_case : exists a b t e k op item f body o s' v d r,
  foreach58l = NForEachStatement a b (NVariable t) e (NArrayElement k op (NVariable item)) f body /\
  n_visit 50 1 foreach58l 5 state58l = Done o s' /\ wf (r_arena state58l) /\ t_label t = Some (lit "q") /\
  bound (lit "q") state58l v /\ data (r_arena state58l) v = Some d /\
  y_types d = [r] /\ multiple (sr_type r) = true /\ sr_node r = Some 2 /\ r_scopes state58l <> [] /\
  t_type item = TVariable /\ t_label item = Some (lit "i").
Proof.
  eexists _, _, _, _, _, _, _, _, _, _, _, 6, _, _. split; [reflexivity|]. split; [vm_compute; reflexivity|].
  split; [apply wf58l|]. split; [reflexivity|]. split; [eexists _, _; split; reflexivity|].
  split; [vm_compute; reflexivity|]. repeat split; try reflexivity. discriminate.
Qed.

(** A variable keeps its first class: a method of the class of the object that
    is assigned later is reported as unknown. *)
Theorem C58_refuted :
  exists s, reachable s /\
    s = opened "<?php" "<?php class A { public function a() { } } class B { public function b() { } } function f(A $x) { $x = new B; $x->b(); }" /\
    complains s pB (lit "Unresolvable symbol b") (mkPos 0 113) (mkPos 0 114).
Proof.
  eexists. split; [|split; [reflexivity|]]; [apply state_after_reachable|].
  eexists. split; [vm_compute; reflexivity|]. left. reflexivity.
Qed.

Print Assumptions C58_stays_partial.
Print Assumptions C58_body_partial.
Print Assumptions C58_parameter_partial.
Print Assumptions C58_function_partial.
Print Assumptions C58_assigned_partial.
Print Assumptions C58_item_partial.
Print Assumptions C58_caught_partial.
Print Assumptions C58_first_type_partial.
Print Assumptions C58_refuted.
