(** Properties C57, C58 and C31: the variables of a function. *)

From Coq Require Import Permutation.
From Verif Require Import Base Token TokenFacts Scanner Node DocBlock Parser Assoc AssocFacts Arena ArenaFacts
  Symbol EnvMonad EnvFacts Workspace WorkspaceFacts Resolver SpecNames ResolverFacts
  Backend BackendFacts SpecServer ServerInv Prop_Server Prop_Highlight Prop_Scopes.
From Verif Require Prop_Definition.

Local Notation findS := (find str_eqb).
Local Existing Instance ascii_runtime | 9.
Local Existing Instance plain_hashing | 9.
Local Open Scope string_scope.
Local Open Scope N_scope.
Local Open Scope list_scope.

(** * Specification *)

(** ** The places where a variable is written *)

(** Code inside of these nodes belongs to the function that the node is in,
    and the analysis goes through it.  The others: declarations, which have
    variables of their own; types and imports, which have none; assignments
    and members, which are evaluated ([reads]). *)
Definition passes (n : Node) : Prop :=
  match n with
  | NUseDeclaration _ _ _ _ | NTypeRef _ | NReturnType _ _ | NNamespaceStatement _ _
  | NClassStatement _ _ _ _ _ _ _ _ _ | NTraitStatement _ _ _ _ | NInterface _ _ _ _ _
  | NMethodDefinitionStatement _ _ _ _ _ _ _ _ _ _ | NNamedFunctionDefinitionStatement _ _ _ _ _
  | NArrowFunction _ _ _ _ _ _ _ _ _ _ | NFunctionArgument _ _ _ _ _ _ _ _
  | NVariable _ | NDocCommentVar _ _ _
  | NMember _ _ _ _ _ | NStaticMember _ _ _ _ _ => False
  | NBinary _ op _ => t_type op <> TAssignment
  | _ => True
  end.

(** [occurs n t]: the variable [t] is written in [n] as a part of an
    expression that is not assigned, or as the variable that something is
    assigned to. *)
Inductive occurs : Node -> Token -> Prop :=
| oc_here : forall t, occurs (NVariable t) t
| oc_assigned : forall t op r, t_type op = TAssignment -> occurs (NBinary (NVariable t) op r) t
| oc_in : forall n c t, passes n -> In c (children n) -> occurs c t -> occurs n t.

(** These expressions are evaluated part by part when they are assigned. *)
Definition composed (n : Node) : Prop :=
  match n with
  | NBinary _ _ _ | NTernary _ _ _ _ _ | NUnary _ _ | NClone _ _ | NNew _ _ | NGrouping _ | NCall _ _ _ _
  | NArray _ _ _ | NArrayElement _ _ _ | NStaticMember _ _ _ _ _ | NMember _ _ _ _ _ | NVariable _
  | NLiteral _ | NTypeRef _ | NField _ _ _ _ => True
  | _ => False
  end.

(** [reads n t]: the value of [n] is that of [t] or depends on it. *)
Inductive reads : Node -> Token -> Prop :=
| rd_here : forall t, reads (NVariable t) t
| rd_left : forall l op r t, t_type op <> TAssignment -> reads l t -> reads (NBinary l op r) t
| rd_right : forall l op r t, t_type op <> TAssignment -> reads r t -> reads (NBinary l op r) t
| rd_assigned : forall v op r t, t_type op = TAssignment -> reads r t -> reads (NBinary (NVariable v) op r) t
| rd_check : forall c q a b f t, reads c t -> reads (NTernary c q a b f) t
| rd_then : forall c q a b f t, reads a t -> reads (NTernary c q (Some a) b f) t
| rd_else : forall c q a b f t, reads f t -> reads (NTernary c q a b f) t
| rd_unary : forall e op t, reads e t -> reads (NUnary e op) t
| rd_clone : forall e op t, reads e t -> reads (NClone op e) t
| rd_new : forall e op t, reads e t -> reads (NNew op e) t
| rd_group : forall e t, reads e t -> reads (NGrouping e) t
| rd_argument : forall c a l b p t, In p l -> reads p t -> reads (NCall c a l b) t
| rd_callee : forall c a l b t, reads c t -> reads (NCall c a l b) t
| rd_element : forall a l b p t, In p l -> reads p t -> reads (NArray a l b) t
| rd_value : forall k a v t, reads v t -> reads (NArrayElement k a v) t
| rd_object : forall o a b m c t, reads o t -> reads (NMember o a b m c) t
| rd_class : forall o a b m c t, reads o t -> reads (NStaticMember o a b m c) t
| rd_index : forall a b i c t, reads i t -> reads (NField a b (Some i) c) t
| rd_array : forall v b i c, reads (NField (NVariable v) b i c) v
| rd_field : forall o a b m c d i e t, reads o t -> reads (NField (NMember o a b m c) d i e) t
| rd_row : forall a b i c d j e t, reads (NField a b i c) t -> reads (NField (NField a b i c) d j e) t
| rd_part : forall n c t, ~ composed n -> In c (children n) -> reads c t -> reads n t.

(** [consults n t]: somewhere in [n] the variable [t] is read to assign its
    value or to use one of its members. *)
Inductive consults : Node -> Token -> Prop :=
| co_member : forall o a b m c t, reads (NMember o a b m c) t -> consults (NMember o a b m c) t
| co_static : forall o a b m c t, reads (NStaticMember o a b m c) t -> consults (NStaticMember o a b m c) t
| co_right : forall l op r t, t_type op = TAssignment -> reads r t -> consults (NBinary l op r) t
| co_left : forall l op r t, t_type op = TAssignment -> (forall v, l <> NVariable v) -> reads l t ->
    consults (NBinary l op r) t
| co_in : forall n c t, passes n -> In c (children n) -> consults c t -> consults n t.

(** [follows n t0 t]: [n] consults [t] after [t0] occurred. *)
Inductive follows : Node -> Token -> Token -> Prop :=
| fo_here : forall n l1 m l2 k l3 t0 t, passes n -> children n = l1 ++ m :: l2 ++ k :: l3 ->
    occurs m t0 -> consults k t -> follows n t0 t
| fo_in : forall n c t0 t, passes n -> In c (children n) -> follows c t0 t -> follows n t0 t.

(** [rebinds x n]: from here on [x] is another variable, the caught
    exception, an element of a collection or a parameter of a closure.  Named
    functions, methods and arrow functions inside of [n] have their own
    variables. *)
Inductive rebinds (x : str) : Node -> Prop :=
| rb_catch : forall a b l v c body, t_label v = Some x -> rebinds x (NCatchBlock a b l v c body)
| rb_each : forall a b coll c k op v d body, t_label v = Some x ->
    rebinds x (NForEachStatement a b coll c (NArrayElement k op (NVariable v)) d body)
| rb_argument : forall ty name a b c d e f, t_label name = Some x -> rebinds x (NFunctionArgument ty name a b c d e f)
| rb_in : forall n c,
    match n with
    | NClassStatement _ _ _ _ _ _ _ _ _ | NTraitStatement _ _ _ _ | NInterface _ _ _ _ _ => True
    | _ => passes n
    end -> In c (children n) -> rebinds x c -> rebinds x n.

(** [within n m]: [m] is a part of [n], in the same function. *)
Inductive within : Node -> Node -> Prop :=
| wi_here : forall n, within n n
| wi_in : forall n c m, passes n -> In c (children n) -> within c m -> within n m.

(** The code of a named function or of a method *)
Definition body_of (f body : Node) : Prop :=
  match f with
  | NNamedFunctionDefinitionStatement _ _ _ (NFunctionDefinitionStatement _ _ _ _ (Some b) _) _
  | NMethodDefinitionStatement _ _ _ _ _ _ (NFunctionDefinitionStatement _ _ _ _ (Some b) _) _ _ _ => body = b
  | _ => False
  end.

(** [t] is written in [n] for the variable [x], as a part of an expression or
    after such an occurrence of [x]. *)
Definition written_in (x : str) (n : Node) (t : Token) : Prop :=
  t_label t = Some x /\ (occurs n t \/ exists t0, t_label t0 = Some x /\ follows n t0 t).

Section Locals.
Context {RT : Runtime} {HH : Hashing}.

(** A reference to [i] at [r] is recorded for the file. *)
Definition referenced (s : rst) (file : N) (r : NodeRange) (i : N) : Prop :=
  exists l, find N.eqb file (r_refs s) = Some l /\ In (r, i) l.
Definition marked (s : rst) (file : N) (t : Token) (i : N) : Prop :=
  exists r, token_range t = Some r /\ referenced s file r i.

(** The name stands for the symbol in the function that is analysed. *)
Definition bound (x : str) (s : rst) (v : N) : Prop :=
  exists top rest, r_scopes s = top :: rest /\ findS x top = Some v.

(** * Proofs *)

(** ** What the lookups leave as it is *)

Record soft (s s' : rst) : Prop := {
  so_refs : forall f r i, referenced s f r i -> referenced s' f r i;
  so_bound : forall x v, bound x s v -> bound x s' v;
  so_some : r_scopes s <> [] -> r_scopes s' <> [];
  so_class : r_class s' = r_class s;
  so_place : r_container s' = r_container s }.

(** ** Computations of which every run relates the states in some way *)

Definition every (Rl : rst -> rst -> Prop) {A} (m : R A) : Prop := forall s x s', m s = Done x s' -> Rl s s'.
Record order (Rl : rst -> rst -> Prop) : Prop := {
  or_refl : forall s, Rl s s;
  or_trans : forall s t u, Rl s t -> Rl t u -> Rl s u }.

Section Every.
Variable Rl : rst -> rst -> Prop.
Hypothesis O : order Rl.
Lemma v_ret : forall A (x : A), every Rl (eret x).
Proof. intros A x s y s' e. injection e as <- <-. apply O. Qed.
Lemma v_panic : forall A, every Rl (@epanic rst A).
Proof. intros A s y s' e. discriminate e. Qed.
Lemma v_fuel : forall A, every Rl (@efuel rst A).
Proof. intros A s y s' e. discriminate e. Qed.
Lemma v_opt : forall A (o : option A), every Rl (eopt o).
Proof. intros A [x|]; [apply v_ret|apply v_panic]. Qed.
Lemma v_bind : forall A B (m : R A) (f : A -> R B), every Rl m -> (forall x, every Rl (f x)) -> every Rl (ebind m f).
Proof.
  intros A B m f hm hf s x s' e. unfold ebind in e. destruct (m s) as [y s1| |] eqn:e1; try discriminate e.
  eapply (or_trans _ O); [eapply hm, e1|eapply hf, e].
Qed.
Lemma v_get : forall A (f : rst -> A), every Rl (eget f).
Proof. intros A f s x s' e. injection e as <- <-. apply O. Qed.
Lemma v_fold : forall A B (f : B -> A -> R B) l b, (forall x y, every Rl (f x y)) -> every Rl (efold f b l).
Proof. intros A B f l. induction l; intros b h; cbn [efold]; [apply v_ret|apply v_bind; auto]. Qed.
Lemma v_find : forall A B (f : A -> R (option B)) l, (forall x, every Rl (f x)) -> every Rl (efind f l).
Proof.
  intros A B f l h. induction l; cbn [efind]; [apply v_ret|]. apply v_bind; auto.
  intros [x|]; auto. apply v_ret.
Qed.
Lemma v_iter : forall A (f : A -> R unit) l, (forall x, In x l -> every Rl (f x)) -> every Rl (eiter f l).
Proof.
  intros A f l h. induction l; cbn [eiter]; [apply v_ret|apply v_bind; [apply h; left; reflexivity|]].
  intros _. apply IHl. intros x hx. apply h. right. exact hx.
Qed.
Lemma v_map : forall A B (f : A -> R B) l, (forall x, every Rl (f x)) -> every Rl (emap f l).
Proof.
  intros A B f l h. induction l; cbn [emap]; [apply v_ret|]. apply v_bind; auto. intros y.
  apply v_bind; auto. intros z. apply v_ret.
Qed.
End Every.

Lemma soft_order : order soft.
Proof.
  constructor.
  - intros s. constructor; auto.
  - intros s t u [] []. constructor; auto; congruence.
Qed.
Notation softly := (every soft).
Lemma s_note : forall n, softly (note n).
Proof. intros n s x s' e. injection e as _ <-. constructor; auto. Qed.
Lemma s_put : forall k v, softly (cache_put k v).
Proof. intros k v s x s' e. injection e as _ <-. constructor; auto. Qed.
Lemma referenced_new : forall f r i s x s', reference f r i s = Done x s' -> referenced s' f r i.
Proof.
  intros f r i s x s' e. injection e as _ <-. unfold referenced. cbn. rewrite (find_upsert _ N.eqb_spec), N.eqb_refl.
  eexists. split; [reflexivity|]. apply in_or_app. right. left. reflexivity.
Qed.
Lemma s_reference : forall f r n, softly (reference f r n).
Proof.
  intros f r n s x s' e. injection e as _ <-. constructor; auto.
  intros f' r' i (l & h1 & h2). unfold referenced. cbn. rewrite (find_upsert _ N.eqb_spec).
  destruct (N.eqb_spec f' f) as [->|ne]; [|eauto]. rewrite h1. eexists. split; [reflexivity|]. apply in_or_app. auto.
Qed.
Lemma s_data : forall i, softly (e_data i).
Proof. intros i s x s' e. unfold e_data in e. destruct (data _ _); [injection e as _ <-; apply soft_order|discriminate e]. Qed.
Lemma s_kids : forall i, softly (e_kids i).
Proof. intros i s x s' e. unfold e_kids in e. destruct (kids _ _); [injection e as _ <-; apply soft_order|discriminate e]. Qed.
Lemma s_top : forall i, softly (e_top i).
Proof. intros i s x s' e. unfold e_top in e. destruct (top _ _); [injection e as _ <-; apply soft_order|discriminate e]. Qed.
Lemma s_new : forall d, softly (e_new d).
Proof. intros d s x s' e. unfold e_new in e. destruct (new_node _ _). injection e as _ <-. constructor; auto. Qed.
Lemma s_append : forall p c, softly (e_append p c).
Proof. intros p c s x s' e. unfold e_append in e. destruct (append _ _ _); [injection e as _ <-; constructor; auto|discriminate e]. Qed.
Lemma s_update : forall i f, softly (e_update i f).
Proof. intros i f s x s' e. unfold e_update in e. destruct (update _ _ _); [injection e as _ <-; constructor; auto|discriminate e]. Qed.
Lemma s_local : forall t, softly (get_local t).
Proof. intros t s x s' e. injection e as _ <-. apply soft_order. Qed.

Ltac so := repeat (cbv beta; match goal with
  | |- forall _, every _ _ => intros ?
  | |- every _ (ebind _ _) => apply (v_bind _ soft_order); [|intros ?]
  | |- every _ (eret _) => apply (v_ret _ soft_order)
  | |- every _ (match ?x with _ => _ end) => destruct x
  | |- every _ epanic => apply v_panic
  | |- every _ efuel => apply v_fuel
  | |- every _ (eopt _) => apply (v_opt _ soft_order)
  | |- every _ (eget _) => apply (v_get _ soft_order)
  | |- every _ (cache_put _ _) => apply s_put
  | |- every _ (note _) => apply s_note
  | |- every _ (reference _ _ _) => apply s_reference
  | |- every _ (e_data _) => apply s_data
  | |- every _ (e_kids _) => apply s_kids
  | |- every _ (e_top _) => apply s_top
  | |- every _ (e_new _) => apply s_new
  | |- every _ (e_append _ _) => apply s_append
  | |- every _ (e_update _ _) => apply s_update
  | |- every _ (get_local _) => apply s_local
  | |- every _ (efold _ _ _) => apply (v_fold _ soft_order); intros ? ?
  | |- every _ (efind _ _) => apply (v_find _ soft_order); intros ?
  | |- every _ (emap _ _) => apply (v_map _ soft_order); intros ?
  | |- every _ (eiter _ _) => apply (v_iter _ soft_order); intros ? ?
  | h : _ |- _ => apply h
  end).

Lemma s_resolve : forall fuel tr ctx b, softly (resolve_type_ref fuel tr ctx b).
Proof.
  induction fuel as [|fuel IH]; intros tr ctx b; cbn [resolve_type_ref]; [apply v_fuel|].
  unfold unique_parent, parent_nodes, current_namespace. so.
Qed.
Lemma s_resolve_all : forall fuel ctx l, softly (resolve_all (resolve_type_ref fuel) ctx l).
Proof. intros fuel ctx l. pose proof (s_resolve fuel). induction l; cbn [resolve_all]; so. Qed.
Lemma s_all : forall fuel ctx, softly (get_all_symbols fuel ctx).
Proof.
  induction fuel as [|fuel IH]; intros ctx; cbn [get_all_symbols]; [apply v_fuel|].
  pose proof (s_resolve fuel) as HR. pose proof (s_resolve_all fuel) as HA.
  unfold get_imports, trait_symbols, inherited_symbols, parent_nodes, own_symbols, apply_insteadof, apply_as. cbv zeta. so.
Qed.
Lemma s_new_local : forall d, softly (new_local d).
Proof. intros d. unfold new_local. so. Qed.
Lemma s_reference_local : forall f t n, softly (reference_local f t n).
Proof. intros f t n. unfold reference_local. so. Qed.
Lemma s_declare : forall f t v, softly (declare_local_if_new f t v).
Proof.
  intros f t v s x s' e. unfold declare_local_if_new in e. unfold ebind at 1, eget in e.
  destruct (r_scopes s) as [|tp rest] eqn:es; [injection e as _ <-; apply soft_order|].
  destruct (t_label t) as [name|]; [|injection e as _ <-; apply soft_order].
  assert (k : forall n, softly (edo reference_local f t n in eret (Some n))) by (intros n; pose proof s_reference_local; so).
  destruct (findS name tp) as [n|] eqn:ef; [eapply k, e|].
  unfold ebind at 1 in e. unfold set_scopes, emod in e. apply k in e.
  eapply (or_trans _ soft_order); [|exact e]. constructor; auto; cbn.
  - intros y w (tp' & rest' & h1 & h2). rewrite es in h1. injection h1 as <- <-.
    exists (put str_eqb name v tp), rest. split; [reflexivity|].
    rewrite (find_put_other _ str_eqb_spec); congruence.
  - discriminate.
Qed.
Lemma s_variable_type : forall fuel n l, softly (variable_type fuel n l).
Proof. intros fuel n l. pose proof (s_resolve fuel). induction l; cbn [variable_type]; so. Qed.
Lemma s_chain_root : forall fuel again file node cur chain, (forall n, softly (again n)) ->
  softly (chain_root fuel again file node cur chain).
Proof.
  induction fuel as [|fuel IH]; intros again file node cur chain h; cbn [chain_root]; [apply v_fuel|].
  pose proof (s_resolve fuel) as HR. pose proof (s_variable_type fuel). pose proof s_new_local. pose proof s_declare.
  pose proof s_reference_local. unfold unique_parent, parent_nodes. so.
Qed.
Lemma s_member_type : forall fuel f m c l, softly (member_type fuel f m c l).
Proof.
  intros fuel f m c l. pose proof (s_resolve fuel) as HR. induction l; cbn [member_type]; [so|].
  unfold unique_parent, parent_nodes. so.
Qed.
Lemma s_follow : forall fuel file fname minimal chain root, softly (follow_chain fuel file fname minimal root chain).
Proof.
  intros fuel file fname minimal chain. pose proof (s_all fuel). pose proof s_member_type. pose proof s_reference_local.
  induction chain; intros root; cbn [follow_chain]; so.
Qed.
Lemma s_member : forall fuel file node, softly (resolve_member_type fuel file node).
Proof.
  induction fuel as [|fuel IH]; intros file node; cbn [resolve_member_type]; [apply v_fuel|].
  pose proof s_follow. pose proof s_chain_root. so.
Qed.

(** ** Reading a variable *)

Lemma marked_soft : forall s s' file t v, soft s s' -> marked s file t v -> marked s' file t v.
Proof. intros s s' file t v k (r & h1 & h2). exists r. split; [exact h1|]. apply k, h2. Qed.
Lemma marked_new : forall file t v s x s', reference_local file t v s = Done x s' -> marked s' file t v.
Proof.
  intros file t v s x s' e. unfold reference_local, ebind in e. destruct (token_range t) as [r|] eqn:er; [|discriminate e].
  exists r. split; [exact er|]. eapply referenced_new. exact e.
Qed.
Lemma local_bound : forall x t v s, t_label t = Some x -> x <> lit "this" -> bound x s v -> get_local t s = Done (Some v) s.
Proof.
  intros x t v s hl hn (tp & rest & h1 & h2). unfold get_local, is_this. rewrite hl.
  replace (str_eqb x (lit "this")) with false by (destruct (str_eqb_spec x (lit "this")); congruence).
  rewrite Bool.andb_false_r, h1, h2. reflexivity.
Qed.
Section Marks.
Variables (file : N) (x : str) (t : Token) (v : N).
Hypothesis hl : t_label t = Some x.
Hypothesis hn : x <> lit "this".

(** If [x] stands for [v], then the computation records [t] as a use of [v]. *)
Definition marks {A} (m : R A) : Prop := forall s y s', bound x s v -> m s = Done y s' -> marked s' file t v.
Lemma k_here : forall A B (m : R A) (f : A -> R B), marks m -> (forall a, softly (f a)) -> marks (ebind m f).
Proof. intros A B m f hm hf s y s' hb e. step e. eapply marked_soft; [eapply hf, e|eapply hm; eassumption]. Qed.
Lemma k_next : forall A B (m : R A) (f : A -> R B), softly m -> (forall a, marks (f a)) -> marks (ebind m f).
Proof. intros A B m f hm hf s y s' hb e. step e. eapply hf; [|exact e]. eapply hm; eassumption. Qed.
Lemma k_ret : forall A B (a : A) (f : A -> R B), marks (f a) -> marks (ebind (eret a) f).
Proof. intros A B a f h s y s' hb e. exact (h s y s' hb e). Qed.
Lemma k_panic : forall A, marks (@epanic rst A).
Proof. intros A s y s' hb e. discriminate e. Qed.
Lemma k_reference : marks (reference_local file t v).
Proof. intros s y s' hb e. eapply marked_new, e. Qed.
Lemma k_local : forall A (f : option N -> R A), marks (f (Some v)) -> marks (elet o <- get_local t in f o).
Proof. intros A f h s y s' hb e. unfold ebind in e. rewrite (local_bound _ _ _ _ hl hn hb) in e. eapply h; eassumption. Qed.
Lemma k_map : forall A B (f : A -> R B) l a, (forall a, softly (f a)) -> In a l -> marks (f a) -> marks (emap f l).
Proof.
  intros A B f l a hs hi hm. induction l as [|b l IH]; [destruct hi|]. cbn [emap]. destruct hi as [->|hi].
  - apply k_here; [exact hm|]. intros c. apply (v_bind _ soft_order); [apply (v_map _ soft_order); exact hs|].
    intros d. apply (v_ret _ soft_order).
  - apply k_next; [apply hs|]. intros c. apply k_here; [auto|]. intros d. apply (v_ret _ soft_order).
Qed.

Lemma root_reads : forall fuel again node cur chain, (forall n, softly (again n)) ->
  (forall n, reads n t -> marks (again n)) ->
  reads cur t -> node = cur \/ (exists c, In c (children node) /\ reads c t) ->
  marks (chain_root fuel again file node cur chain).
Proof.
  induction fuel as [|fuel IH]; intros again node cur chain hs ha hr hc; [intros s y s' _ e; discriminate e|].
  assert (S : forall node cur chain, softly (chain_root fuel again file node cur chain)) by (intros; apply s_chain_root, hs).
  assert (D : forall cur' chain, reads cur' t -> (In cur' (children cur) \/ exists c, In c (children cur) /\ reads c t) ->
    marks (chain_root fuel again file node cur' chain)).
  { intros cur' chain' h1 h2. apply IH; auto. right. destruct hc as [->|hc]; [|exact hc].
    destruct h2 as [h2|h2]; eauto. }
  pose proof (s_resolve fuel) as HR. pose proof (s_variable_type fuel) as HV. pose proof s_new_local as HN. pose proof s_declare as HD.
  pose proof s_reference_local as HL.
  assert (M : forall l c, In c l -> reads c t -> marks (edo emap again l in eret (Answer None))).
  { intros l c h1 h2. apply k_here; [|intros; apply (v_ret _ soft_order)]. eapply k_map; eauto. }
  assert (V : forall c0, marks (elet o <- get_local t in
              match o with
              | None => eret None
              | Some var =>
                  edo reference_local file t var in
                  elet d <- e_data var in
                  eret (match List.find (fun r => multiple (sr_type r) && is_some (sr_node r)) (y_types d) with
                        | Some r => sr_node r
                        | None => c0
                        end)
              end)).
  { intros c0. apply k_local. apply k_here; [apply k_reference|]. intros. so. }
  inversion hr; subst; clear hr; try match goal with h : reads _ t |- _ => rename h into hr end;
    cbn [chain_root]; cbn [children] in D.
  - apply k_local. apply k_here; [apply k_reference|]. intros _. so.
  - destruct (tt_eqb_spec (t_type op) TAssignment); [contradiction|]. apply k_here; [apply ha; exact hr|]. so.
  - destruct (tt_eqb_spec (t_type op) TAssignment); [contradiction|]. apply k_next; [apply hs|]. intros _.
    apply k_here; [apply ha; exact hr|]. so.
  - destruct (tt_eqb_spec (t_type op) TAssignment); [|contradiction]. apply k_here; [apply ha; exact hr|]. so.
  - apply k_here; [apply ha; exact hr|]. so.
  - apply k_next; [apply hs|]. intros _. apply k_here; [apply ha; exact hr|]. so.
  - apply k_next; [apply hs|]. intros _. apply k_next; [so|]. intros _. apply k_here; [apply ha; exact hr|]. so.
  - apply D; [exact hr|]. left. left. reflexivity.
  - apply D; [exact hr|]. left. left. reflexivity.
  - apply D; [exact hr|]. left. left. reflexivity.
  - apply D; [exact hr|]. left. left. reflexivity.
  - apply k_here; [eapply k_map; eauto|]. so.
  - apply k_next; [so|]. intros _. apply D; [exact hr|]. left. apply in_or_app. right. left. reflexivity.
  - eapply M; eauto.
  - apply k_here; [apply ha; exact hr|]. so.
  - apply D; [exact hr|]. left. left. reflexivity.
  - apply D; [exact hr|]. left. left. reflexivity.
  - apply k_here; [apply ha; exact hr|]. so.
  - apply k_next; [so|]. intros _. apply k_here; [apply (V None)|]. so.
  - apply k_next; [so|]. intros _. apply k_ret.
    apply D; [exact hr|]. right. exists (NMember o a b m c). split; [destruct i; left; reflexivity|]. constructor. exact hr.
  - apply k_next; [so|]. intros _. apply k_ret.
    assert (E : forall cur' chain, reads cur' t -> marks (chain_root fuel again file node cur' chain)).
    { intros cur' ch h. apply D; [exact h|]. right. exists (NField a b i c). split; [destruct j; left; reflexivity|exact hr]. }
    inversion hr; subst; clear hr; try match goal with h : reads _ t |- _ => rename h into hr end.
    + apply k_here; [apply ha; exact hr|]. so.
    + apply k_next; [so|]. intros _. apply E. constructor.
    + apply k_next; [so|]. intros _. apply E. constructor. exact hr.
    + apply k_next; [so|]. intros _. apply E. exact hr.
    + exfalso. match goal with h : ~ _ |- _ => apply h end. exact I.
  - assert (E : marks (edo emap again (children node) in eret (Answer None))).
    { destruct hc as [->|(c1 & h1 & h2)]; eapply M; eauto. }
    destruct cur; try exact E; exfalso; match goal with h : ~ _ |- _ => apply h end; exact I.
Qed.

Lemma member_reads : forall fuel n, reads n t -> marks (resolve_member_type fuel file n).
Proof.
  induction fuel as [|fuel IH]; intros n h; cbn [resolve_member_type]; [intros s y s' _ e; discriminate e|].
  pose proof s_follow. apply k_here; [|so]. apply root_reads; auto. apply s_member.
Qed.
End Marks.

(** ** The visitor *)

Definition grown (s s' : rst) : Prop := forall f r i, referenced s f r i -> referenced s' f r i.
Definition keep (x : str) (s s' : rst) : Prop :=
  (forall v, bound x s v -> bound x s' v) /\ (r_scopes s <> [] -> r_scopes s' <> []).
Definition rests (s s' : rst) : Prop := r_class s' = r_class s /\ r_container s' = r_container s.
Lemma grown_order : order grown.
Proof. constructor; unfold grown; auto. Qed.
Lemma keep_order : forall x, order (keep x).
Proof. intros x. constructor; unfold keep; [auto|]. intros s t u [h1 h2] [h3 h4]. auto. Qed.
Lemma rests_order : order rests.
Proof. constructor; unfold rests; [auto|]. intros s t u [h1 h2] [h3 h4]. split; congruence. Qed.
Lemma grown_soft : forall A (m : R A), softly m -> every grown m.
Proof. intros A m h s y s' e. apply h in e as []. unfold grown. auto. Qed.
Lemma keep_soft : forall x A (m : R A), softly m -> every (keep x) m.
Proof. intros x A m h s y s' e. apply h in e as []. unfold keep. auto. Qed.
Lemma rests_soft : forall A (m : R A), softly m -> every rests m.
Proof. intros A m h s y s' e. apply h in e as []. unfold rests. auto. Qed.

Lemma grown_over : forall f t v b, every grown (declare_or_overwrite_local f t v b).
Proof.
  intros f t v b. unfold declare_or_overwrite_local. apply (v_bind _ grown_order); [apply (v_get _ grown_order)|]. intros sc.
  apply (v_bind _ grown_order).
  - destruct sc, (t_label t); try apply (v_ret _ grown_order). intros s y s' e. injection e as _ <-. unfold grown. auto.
  - intros _. apply grown_soft. destruct b; [apply s_reference_local|apply (v_ret _ soft_order)].
Qed.
Lemma rests_over : forall f t v b, every rests (declare_or_overwrite_local f t v b).
Proof.
  intros f t v b. unfold declare_or_overwrite_local. apply (v_bind _ rests_order); [apply (v_get _ rests_order)|]. intros sc.
  apply (v_bind _ rests_order).
  - destruct sc, (t_label t); try apply (v_ret _ rests_order). intros s y s' e. injection e as _ <-. split; reflexivity.
  - intros _. apply rests_soft. destruct b; [apply s_reference_local|apply (v_ret _ soft_order)].
Qed.
Lemma keep_over : forall x f t v b, t_label t <> Some x -> every (keep x) (declare_or_overwrite_local f t v b).
Proof.
  intros x f t v b hx s y s' e. unfold declare_or_overwrite_local in e. unfold ebind at 1, eget in e.
  assert (k : forall m : R unit, m = (if b then reference_local f t v else eret tt) -> every (keep x) m).
  { intros m ->. apply keep_soft. destruct b; [apply s_reference_local|apply (v_ret _ soft_order)]. }
  step e. apply (k _ eq_refl) in e. eapply (or_trans _ (keep_order x)); [|exact e].
  destruct (r_scopes s) as [|tp rest] eqn:es; [injection e1 as _ <-; apply (keep_order x)|].
  destruct (t_label t) as [l|]; [|injection e1 as _ <-; apply (keep_order x)].
  injection e1 as _ <-. split; [|cbn; discriminate]. intros w (tp' & rest' & h1 & h2). rewrite es in h1. injection h1 as <- <-.
  cbn. do 2 eexists. split; [reflexivity|]. rewrite (find_put_other _ str_eqb_spec); congruence.
Qed.

Ltac ev O inc leaf := repeat (cbv beta; match goal with
  | |- every _ (ebind _ _) => apply (v_bind _ O); [|intros ?]
  | |- every _ (match ?x with _ => _ end) => destruct x
  | |- _ => solve [leaf | apply inc; so]
  end).

Lemma s_each : forall fuel l p, softly (resolve_each fuel l p).
Proof. intros fuel l p. pose proof s_resolve. unfold resolve_each. so. Qed.
Lemma s_resolved_ref : forall fuel tr p, softly (resolved_ref fuel tr p).
Proof. intros fuel tr p. pose proof s_resolve. unfold resolved_ref. so. Qed.
Lemma s_find_kid : forall i p, softly (e_find_kid i p).
Proof. intros i p. unfold e_find_kid. so. Qed.
Lemma s_fq : forall n, softly (resolve_fully_qualified n).
Proof. intros n. unfold resolve_fully_qualified. so. Qed.

Definition class_like (n : Node) : Prop :=
  match n with
  | NClassStatement _ _ _ _ _ _ _ _ _ | NTraitStatement _ _ _ _ | NInterface _ _ _ _ _ => True
  | _ => False
  end.
Definition arrow_like (n : Node) : Prop := match n with NArrowFunction _ _ _ _ _ _ _ _ _ _ => True | _ => False end.

Ltac known := pose proof s_member; pose proof s_resolve; pose proof s_reference_local; pose proof s_declare;
  pose proof s_new_local; pose proof s_each; pose proof s_resolved_ref; pose proof s_find_kid; pose proof s_fq.

(** The nodes that change what a name stands for, or the place *)
Definition special (n : Node) : Prop :=
  match n with
  | NCatchBlock _ _ _ _ _ _ | NForEachStatement _ _ _ _ _ _ _ | NFunctionArgument _ _ _ _ _ _ _ _ => True
  | _ => class_like n
  end.
Lemma visit_soft : forall fuel file node parent, ~ special node -> softly (n_visit fuel file node parent).
Proof.
  intros fuel file node parent h.
  destruct node; try (exfalso; apply h; exact I); clear h; cbn [n_visit]; try (apply (v_ret _ soft_order)); known; so.
Qed.
Lemma special_dec : forall n, special n \/ ~ special n.
Proof. intros n. destruct n; try (left; exact I); right; intros []. Qed.
Ltac specially fuel file node parent O inc leaf :=
  let hs := fresh in
  destruct (special_dec node) as [hs|hs]; [|apply inc, visit_soft; exact hs];
  known; destruct node; destruct hs; cbn [n_visit]; ev O inc leaf.

Lemma visit_rests : forall fuel file node parent, ~ class_like node -> every rests (n_visit fuel file node parent).
Proof.
  intros fuel file node parent h.
  specially fuel file node parent rests_order rests_soft ltac:(first [apply rests_over|exfalso; apply h; exact I]).
Qed.
Lemma visit_grown : forall fuel file node parent, every grown (n_visit fuel file node parent).
Proof.
  intros fuel file node parent.
  assert (HE : forall c, every grown (enter_class c)).
  { intros c s y s' e. injection e as _ <-. unfold grown. auto. }
  specially fuel file node parent grown_order grown_soft ltac:(first [apply grown_over|apply HE]).
Qed.
Lemma visit_keep : forall x fuel file node parent, ~ rebinds x node -> every (keep x) (n_visit fuel file node parent).
Proof.
  intros x fuel file node parent hr.
  assert (HE : forall c, every (keep x) (enter_class c)).
  { intros c s y s' e. injection e as _ <-. unfold keep. auto. }
  specially fuel file node parent (keep_order x) (keep_soft x)
    ltac:(first [apply HE|apply keep_over; intros hx; apply hr; constructor; exact hx]).
Qed.

(** ** The whole tree *)

Definition gives {A} (P : A -> Prop) (m : R A) : Prop := forall s y s', m s = Done y s' -> P y.
Lemma gi_ret : forall A (P : A -> Prop) a, P a -> gives P (eret a).
Proof. intros A P a h s y s' e. injection e as <- _. exact h. Qed.
Lemma gi_bind : forall A B (P : B -> Prop) (m : R A) f, (forall a, gives P (f a)) -> gives P (ebind m f).
Proof. intros A B P m f h s y s' e. step e. eapply h, e. Qed.
Ltac gi := repeat (cbv beta; match goal with
  | |- gives _ (ebind _ _) => apply gi_bind; intros ?
  | |- gives _ (eret _) => apply gi_ret
  | |- gives _ (match ?x with _ => _ end) => destruct x
  end).
Lemma visit_passes : forall fuel file node parent, passes node ->
  gives (fun o : option N => o <> None) (n_visit fuel file node parent).
Proof.
  intros fuel file node parent h.
  destruct node; cbn [passes] in h; try (exfalso; exact h); cbn [n_visit]; try (apply gi_ret; discriminate);
    try (gi; discriminate).
  destruct (tt_eqb_spec (t_type token) TAssignment); [contradiction|]. apply gi_ret. discriminate.
Qed.
Lemma visit_stops : forall fuel file node parent, ~ passes node -> ~ class_like node -> ~ function_node node -> ~ arrow_like node ->
  gives (fun o : option N => o = None) (n_visit fuel file node parent).
Proof.
  intros fuel file node parent h1 h2 h3 h4.
  destruct node; try (exfalso; first [apply h1; exact I|apply h2; exact I|apply h3; exact I|apply h4; exact I]);
    cbn [n_visit]; try (gi; reflexivity).
  cbn [passes] in h1. destruct (tt_eqb_spec (t_type token) TAssignment); [gi; reflexivity|contradiction].
Qed.

Lemma before_soft : forall file node, ~ function_node node -> ~ arrow_like node -> softly (n_before file node).
Proof.
  intros file node h1 h2. pose proof s_find_kid.
  destruct node; try (exfalso; first [apply h1; exact I|apply h2; exact I]); cbn [n_before];
    try apply (v_ret _ soft_order); so.
Qed.
Lemma before_grown : forall file node, every grown (n_before file node).
Proof.
  intros file node. pose proof s_find_kid.
  assert (H0 : forall c, every grown (set_container c)) by (intros c s y s' e; injection e as _ <-; unfold grown; auto).
  assert (H1 : every grown push_scope) by (intros s y s' e; injection e as _ <-; unfold grown; auto).
  assert (H2 : every grown clone_scope) by (intros s y s' e; injection e as _ <-; unfold grown; auto).
  destruct node; cbn [n_before]; try apply (v_ret _ grown_order);
    ev grown_order grown_soft ltac:(first [apply H0|apply H1|apply H2]).
Qed.
Lemma after_grown : forall node parent, every grown (n_after node parent).
Proof.
  intros node parent.
  assert (H0 : forall c, every grown (set_container c)) by (intros c s y s' e; injection e as _ <-; unfold grown; auto).
  assert (H1 : every grown leave_class) by (intros s y s' e; injection e as _ <-; unfold grown; auto).
  assert (H2 : every grown pop_scope) by (intros s y s' e; injection e as _ <-; unfold grown; auto).
  destruct node; cbn [n_after]; try apply (v_ret _ grown_order);
    ev grown_order grown_soft ltac:(first [apply H0|apply H1|apply H2]).
Qed.
Lemma traverse_grown : forall fuel file node parent, every grown (n_traverse fuel file node parent).
Proof.
  induction fuel as [|fuel IH]; intros file node parent; cbn [n_traverse]; [apply v_fuel|].
  apply (v_bind _ grown_order); [apply before_grown|]. intros _.
  apply (v_bind _ grown_order); [apply visit_grown|]. intros next.
  apply (v_bind _ grown_order); [|intros _; apply after_grown].
  destruct next; [apply (v_iter _ grown_order); auto|apply (v_ret _ grown_order)].
Qed.

(** The scopes behind functions *)
Lemma function_scopes : forall fuel file node parent s y s', function_node node \/ arrow_like node ->
  n_traverse fuel file node parent s = Done y s' -> r_scopes s <> [] -> r_scopes s' = r_scopes s.
Proof.
  intros [|fuel] file node parent s [] s' hk e hs; [discriminate e|]. destruct hk as [hf|ha].
  - eapply C31_function_balanced; eassumption.
  - destruct (r_scopes s) as [|tp rest] eqn:es; [congruence|]. rewrite traverse_shape in e.
    destruct node; try destruct ha. cbn [n_before n_after] in e. fold (enter_arrow token) in e.
    match type of e with context [inner _ _ _ ?n _] => set (me := n) in e end.
    unfold ebind at 1 in e. rewrite (inner_bind clone_scope _ _ _ _ _ _ (scoped (tp :: r_scopes s) s)) in e.
    2:{ unfold clone_scope, ebind, eget, set_scopes, emod, scoped. rewrite es. reflexivity. }
    pose proof (own_scope _ parent tp (fr_inner _ fuel file me parent (fr_enter_arrow token) (fr_traverse fuel)) s) as k.
    unfold ebind at 1 in k.
    destruct (inner (enter_arrow token) fuel file me parent (scoped (tp :: r_scopes s) s)) as [u s1| |]; try discriminate e.
    rewrite e in k. rewrite <- es. apply k.
Qed.

Lemma after_plain : forall node parent, ~ class_like node -> ~ function_node node -> ~ arrow_like node ->
  n_after node parent = eret tt.
Proof.
  intros node parent h1 h2 h3. destruct node; try reflexivity; exfalso; first [apply h1; exact I|apply h2; exact I|apply h3; exact I].
Qed.
Lemma after_keep : forall x node parent, ~ function_node node -> ~ arrow_like node -> every (keep x) (n_after node parent).
Proof.
  intros x node parent h2 h3.
  destruct node; try (exfalso; first [apply h2; exact I|apply h3; exact I]); cbn [n_after]; try apply (v_ret _ (keep_order x));
    intros s y s' e; injection e as _ <-; unfold keep; auto.
Qed.
Lemma sorts : forall n, (function_node n \/ arrow_like n) \/ (~ function_node n /\ ~ arrow_like n).
Proof. intros n. destruct n; try (left; left; exact I); try (left; right; exact I); right; split; intros []. Qed.
Lemma passes_dec : forall n, passes n \/ ~ passes n.
Proof.
  intros n. destruct n; cbn [passes]; auto. destruct (tt_eqb_spec (t_type token) TAssignment); auto.
Qed.
Lemma class_dec : forall n, class_like n \/ ~ class_like n.
Proof. intros n. destruct n; try (left; exact I); right; intros []. Qed.

Lemma steady_kids : forall x n, ~ rebinds x n -> passes n \/ class_like n -> forall c, In c (children n) -> ~ rebinds x c.
Proof.
  intros x n h hp c hi hc. apply h. apply (rb_in x n c); auto. destruct hp as [hp|hp]; destruct n; auto; try destruct hp.
Qed.

Lemma iter_keep : forall x A (f : A -> R unit) l,
  (forall c, In c l -> forall s y s', r_scopes s <> [] -> f c s = Done y s' -> keep x s s') ->
  forall s y s', r_scopes s <> [] -> eiter f l s = Done y s' -> keep x s s'.
Proof.
  intros x A f l. induction l as [|c l IH]; intros h s y s' hs e; cbn [eiter] in e.
  - injection e as _ <-. apply (keep_order x).
  - step e. assert (k : keep x s t) by (eapply h; [left; reflexivity|eassumption..]).
    eapply (or_trans _ (keep_order x)); [exact k|]. eapply IH; [|apply k, hs|exact e]. intros d hd. apply h. right. exact hd.
Qed.
Lemma traverse_keep : forall x fuel file node parent, ~ rebinds x node ->
  forall s y s', r_scopes s <> [] -> n_traverse fuel file node parent s = Done y s' -> keep x s s'.
Proof.
  intros x. induction fuel as [|fuel IH]; intros file node parent hr s y s' hs e; [discriminate e|].
  destruct (sorts node) as [hk|[h1 h2]].
  - pose proof (function_scopes _ _ _ _ _ _ _ hk e hs) as k. unfold keep, bound. rewrite k. auto.
  - cbn [n_traverse] in e. step e. step e. step e.
    apply (keep_soft x _ _ (before_soft file node h1 h2)) in e1. pose proof e0 as ev.
    apply (visit_keep x fuel file node parent hr) in e0.
    apply (after_keep x node parent h1 h2) in e.
    assert (k : keep x t0 t1).
    { destruct x1 as [p|]; [|injection e2 as _ <-; apply (keep_order x)].
      assert (hp : passes node \/ class_like node).
      { destruct (passes_dec node) as [hp|hp]; [auto|]. destruct (class_dec node) as [hc|hc]; [auto|].
        apply (visit_stops fuel file node parent hp hc h1 h2) in ev. discriminate ev. }
      eapply iter_keep; [|apply e0, e1, hs|exact e2]. intros c hc. apply IH. eapply steady_kids; eassumption. }
    eauto using (or_trans _ (keep_order x)).
Qed.

(** Through the nodes that the analysis passes *)
Lemma through : forall x fuel file node parent s y s', passes node -> ~ rebinds x node -> r_scopes s <> [] ->
  n_traverse (S fuel) file node parent s = Done y s' ->
  exists s1 p, r_scopes s1 <> [] /\ (forall v, bound x s v -> bound x s1 v) /\
    eiter (fun c => n_traverse fuel file c p) (children node) s1 = Done tt s'.
Proof.
  intros x fuel file node parent s y s' hp hr hs e.
  assert (h1 : ~ function_node node) by (intros h; destruct node; try destruct h; exact hp).
  assert (h2 : ~ arrow_like node) by (intros h; destruct node; try destruct h; exact hp).
  assert (h3 : ~ class_like node) by (intros h; destruct node; try destruct h; exact hp).
  cbn [n_traverse] in e. step e. step e. step e.
  apply (keep_soft x _ _ (before_soft file node h1 h2)) in e1. pose proof e0 as ev.
  apply (visit_keep x fuel file node parent hr) in e0. apply (visit_passes fuel file node parent hp) in ev.
  destruct x1 as [p|]; [|congruence]. rewrite (after_plain node parent h3 h1 h2) in e. injection e as _ <-.
  destruct x2. exists t0, p. split; [apply e0, e1, hs|]. split; [|exact e2]. intros v hv. apply e0, e1, hv.
Qed.
Lemma iter_at : forall A (f : A -> R unit) l1 a l2 s s', eiter f (l1 ++ a :: l2) s = Done tt s' ->
  exists s1 s2, eiter f l1 s = Done tt s1 /\ f a s1 = Done tt s2 /\ eiter f l2 s2 = Done tt s'.
Proof.
  intros A f l1 a l2. induction l1 as [|b l1 IH]; intros s s' e; cbn [app eiter] in *.
  - step e. destruct x. eauto 6.
  - step e. destruct x. destruct (IH _ _ e) as (s1 & s2 & h1 & h2 & h3). exists s1, s2. split; [|auto].
    unfold ebind. rewrite e1. exact h1.
Qed.
Lemma iter_grown : forall fuel file p l, every grown (eiter (fun c => n_traverse fuel file c p) l).
Proof. intros. apply (v_iter _ grown_order). intros. apply traverse_grown. Qed.
Lemma marked_grown : forall s s' file t v, grown s s' -> marked s file t v -> marked s' file t v.
Proof. intros s s' file t v k (r & h1 & h2). exists r. split; [exact h1|]. apply k, h2. Qed.

Section OneName.
Variables (file : N) (x : str).
Hypothesis hn : x <> lit "this".

Lemma declare_marks : forall t v s o s', t_label t = Some x -> r_scopes s <> [] ->
  declare_local_if_new file t v s = Done o s' -> exists w, bound x s' w /\ marked s' file t w.
Proof.
  intros t v s o s' hl hs e. unfold declare_local_if_new in e. unfold ebind at 1, eget in e.
  destruct (r_scopes s) as [|tp rest] eqn:es; [congruence|]. rewrite hl in e.
  destruct (findS x tp) as [w|] eqn:ef.
  - step e. injection e as _ <-. exists w. split; [|eapply marked_new, e1]. apply s_reference_local in e1. apply e1.
    exists tp, rest. auto.
  - step e. injection e1 as _ <-. step e. injection e as _ <-. exists v. split; [|eapply marked_new, e1].
    apply s_reference_local in e1. apply e1. do 2 eexists. split; [reflexivity|]. apply find_put_same, str_eqb_spec.
Qed.

Lemma occurs_marked : forall fuel node t parent s y s', t_label t = Some x -> ~ rebinds x node -> occurs node t ->
  r_scopes s <> [] -> n_traverse fuel file node parent s = Done y s' -> exists v, bound x s' v /\ marked s' file t v.
Proof.
  intros fuel node t parent s y s' hl hr ho. revert fuel parent s y s' hr.
  induction ho as [t|t op r ha|n c t hp hi ho IH]; intros fuel parent s y s' hr hs e; (destruct fuel as [|fuel]; [discriminate e|]).
  - cbn [n_traverse n_before n_visit n_after] in e. take e as e1. injection e1 as _ <-. take e as e1.
    take e as e2. injection e as _ <-.
    unfold ebind at 1, get_local, is_this in e1. rewrite hl in e1.
    replace (str_eqb x (lit "this")) with false in e1 by (destruct (str_eqb_spec x (lit "this")); congruence).
    rewrite Bool.andb_false_r in e1. destruct (r_scopes s) as [|tp rest] eqn:es; [congruence|].
    destruct (findS x tp) as [v|] eqn:ef.
    + take e1 as e0. injection e1 as <- <-. injection e2 as _ <-. exists v. split; [|eapply marked_new, e0].
      apply s_reference_local in e0. apply e0. exists tp, rest. auto.
    + take e1 as e0. apply eopt_done in e0 as [_ ->]. take e1 as e0. take e1 as e3. injection e1 as <- <-. injection e2 as _ <-.
      eapply declare_marks; [exact hl| |exact e3]. apply s_new_local in e0. apply e0. congruence.
  - cbn [n_traverse n_before n_visit n_after] in e. take e as e1. injection e1 as _ <-. take e as e1.
    take e as e2. injection e as _ <-. rewrite ha in e1. replace (tt_eqb TAssignment TAssignment) with true in e1 by reflexivity.
    take e1 as e0. apply s_member in e0. take e1 as e3. apply eopt_done in e3 as [_ ->]. take e1 as e3. apply s_new_local in e3.
    take e1 as e4. apply declare_marks in e4 as (v & k1 & k2); [|exact hl|apply e3, e0, hs].
    take e1 as e5. apply eopt_done in e5 as [_ ->]. take e1 as e5. injection e1 as <- <-. injection e2 as _ <-.
    assert (k : soft t4 t5).
    { revert e5. destruct x3; [|intros h; injection h as _ <-; apply soft_order].
      destruct (_ =? _); [intros h; injection h as _ <-; apply soft_order|].
      intros h. take h as h1. apply eopt_done in h1 as [_ ->]. apply s_update in h. exact h. }
    exists v. split; [apply k, k1|]. eapply marked_soft; eassumption.
  - destruct (through x _ _ _ _ _ _ _ hp hr hs e) as (s1 & p & h1 & h2 & h3). apply in_split in hi as (l1 & l2 & hi).
    assert (hk : forall d, In d (children n) -> ~ rebinds x d) by (intros d; eapply steady_kids; eauto).
    rewrite hi in h3, hk. apply iter_at in h3 as (s2 & s3 & k1 & k2 & k3).
    assert (g1 : keep x s1 s2).
    { eapply iter_keep; [|exact h1|exact k1]. intros d hd. apply traverse_keep. apply hk, in_or_app. auto. }
    destruct (IH hl _ _ _ _ _ (hk c ltac:(apply in_elt)) (proj2 g1 h1) k2) as (v & b & m).
    assert (g2 : keep x s3 s').
    { eapply iter_keep; [| |exact k3].
      - intros d hd. apply traverse_keep. apply hk, in_or_app. right. right. exact hd.
      - destruct b as (tp & rest & b & _). rewrite b. discriminate. }
    exists v. split; [apply g2, b|]. eapply marked_grown; [eapply iter_grown, k3|exact m].
Qed.

Lemma consults_marked : forall fuel node t parent s y s' v, t_label t = Some x -> ~ rebinds x node -> consults node t ->
  bound x s v -> n_traverse fuel file node parent s = Done y s' -> marked s' file t v.
Proof.
  intros fuel node t parent s y s' v hl hr ho. revert fuel parent s y s' hr.
  induction ho as [o a b m c t hd|o a b m c t hd|l op r t ha hd|l op r t ha hv hd|n c t hp hi ho IH];
    intros fuel parent s y s' hr hb e; (destruct fuel as [|fuel]; [discriminate e|]).
  - cbn [n_traverse n_before n_visit n_after] in e. take e as e1. injection e1 as _ <-. take e as e1.
    take e as e2. injection e as _ <-. take e1 as e0. injection e1 as <- <-. injection e2 as _ <-.
    eapply member_reads; eassumption.
  - cbn [n_traverse n_before n_visit n_after] in e. take e as e1. injection e1 as _ <-. take e as e1.
    take e as e2. injection e as _ <-. take e1 as e0. injection e1 as <- <-. injection e2 as _ <-.
    eapply member_reads; eassumption.
  - pose proof (traverse_grown (S fuel) file (NBinary l op r) parent _ _ _ e) as hg.
    cbn [n_traverse n_before n_visit n_after] in e. take e as e1. injection e1 as _ <-. take e as e1.
    take e as e2. injection e as _ <-. rewrite ha in e1. replace (tt_eqb TAssignment TAssignment) with true in e1 by reflexivity.
    take e1 as e0. eapply member_reads in e0; try eassumption.
    assert (k : soft t2 t0).
    { revert e1. pose proof s_new_local. pose proof s_declare. pose proof s_member.
      match goal with |- ?m t2 = _ -> _ => intros h; cut (softly m); [intros k; eapply k, h|] end. so. }
    assert (k2 : grown t0 t1).
    { revert e2. destruct x1; [|intros h; injection h as _ <-; apply grown_order]. apply iter_grown. }
    eapply marked_grown; [exact k2|]. eapply marked_soft; eassumption.
  - cbn [n_traverse n_before n_visit n_after] in e. take e as e1. injection e1 as _ <-. take e as e1.
    take e as e2. injection e as _ <-. rewrite ha in e1. replace (tt_eqb TAssignment TAssignment) with true in e1 by reflexivity.
    take e1 as e0. apply s_member in e0. 
    assert (k : marked t0 file t v).
    { assert (q : exists f u, resolve_member_type f file l t2 = Done u t0).
      { destruct l; try (take e1 as e3; injection e1 as _ <-; eauto). exfalso. eapply hv. reflexivity. }
      destruct q as (f & u & q). eapply member_reads; [exact hl|exact hn|exact hd|apply e0, hb|exact q]. }
    eapply marked_grown; [|exact k].
    revert e2. destruct x1; [|intros h; injection h as _ <-; apply grown_order]. apply iter_grown.
  - assert (hs : r_scopes s <> []) by (destruct hb as (tp & rest & b & _); rewrite b; discriminate).
    destruct (through x _ _ _ _ _ _ _ hp hr hs e) as (s1 & p & h1 & h2 & h3). apply in_split in hi as (l1 & l2 & hi).
    assert (hk : forall d, In d (children n) -> ~ rebinds x d) by (intros d; eapply steady_kids; eauto).
    rewrite hi in h3, hk. apply iter_at in h3 as (s2 & s3 & k1 & k2 & k3).
    assert (g1 : keep x s1 s2).
    { eapply iter_keep; [|exact h1|exact k1]. intros d hd. apply traverse_keep. apply hk, in_or_app. auto. }
    eapply marked_grown; [eapply iter_grown, k3|].
    eapply IH; [exact hl|apply hk, in_elt|apply g1, h2, hb|exact k2].
Qed.

Lemma follows_marked : forall fuel node t0 t parent s y s', t_label t0 = Some x -> t_label t = Some x ->
  ~ rebinds x node -> follows node t0 t -> r_scopes s <> [] ->
  n_traverse fuel file node parent s = Done y s' -> exists v, bound x s' v /\ marked s' file t v.
Proof.
  intros fuel node t0 t parent s y s' hl0 hl hr ho. revert fuel parent s y s' hr.
  induction ho as [n l1 m l2 k l3 t0 t hp hi ho hc|n c t0 t hp hi ho IH]; intros fuel parent s y s' hr hs e; (destruct fuel as [|fuel]; [discriminate e|]);
    destruct (through x _ _ _ _ _ _ _ hp hr hs e) as (s1 & p & h1 & h2 & h3);
    assert (hk : forall d, In d (children n) -> ~ rebinds x d) by (intros d; eapply steady_kids; eauto).
  - rewrite hi in h3, hk. apply iter_at in h3 as (s2 & s3 & k1 & k2 & k3). apply iter_at in k3 as (s4 & s5 & k3 & k4 & k5).
    assert (g1 : keep x s1 s2).
    { eapply iter_keep; [|exact h1|exact k1]. intros d hd. apply traverse_keep. apply hk, in_or_app. auto. }
    destruct (occurs_marked _ _ _ _ _ _ _ hl0 (hk m ltac:(apply in_elt)) ho (proj2 g1 h1) k2) as (w & b & _).
    assert (g2 : keep x s3 s4).
    { eapply iter_keep; [| |exact k3].
      - intros d hd. apply traverse_keep. apply hk, in_or_app. right. right. apply in_or_app. auto.
      - destruct b as (tp & rest & b & _). rewrite b. discriminate. }
    assert (hkk : ~ rebinds x k) by (apply hk, in_or_app; right; right; apply in_elt).
    assert (g4 : keep x s4 s5).
    { eapply traverse_keep; [exact hkk| |exact k4]. apply g2 in b as (tp & rest & b & _). rewrite b. discriminate. }
    assert (g5 : keep x s5 s').
    { eapply iter_keep; [| |exact k5].
      - intros d hd. apply traverse_keep. apply hk, in_or_app. right. right. apply in_or_app. right. right. exact hd.
      - apply g2, g4 in b as (tp & rest & b & _). rewrite b. discriminate. }
    exists w. split; [apply g5, g4, g2, b|]. eapply marked_grown; [eapply iter_grown, k5|].
    eapply consults_marked; [exact hl|exact hkk|exact hc| |exact k4]. apply g2, b.
  - apply in_split in hi as (l1 & l2 & hi). rewrite hi in h3, hk. apply iter_at in h3 as (s2 & s3 & k1 & k2 & k3).
    assert (g1 : keep x s1 s2).
    { eapply iter_keep; [|exact h1|exact k1]. intros d hd. apply traverse_keep. apply hk, in_or_app. auto. }
    destruct (IH hl0 hl _ _ _ _ _ (hk c ltac:(apply in_elt)) (proj2 g1 h1) k2) as (v & b & m).
    assert (g2 : keep x s3 s').
    { eapply iter_keep; [| |exact k3].
      - intros d hd. apply traverse_keep. apply hk, in_or_app. right. right. exact hd.
      - destruct b as (tp & rest & b & _). rewrite b. discriminate. }
    exists v. split; [apply g2, b|]. eapply marked_grown; [eapply iter_grown, k3|exact m].
Qed.
End OneName.

(** ** Functions in a file *)

Lemma through0 : forall fuel file node parent s y s', passes node -> n_traverse (S fuel) file node parent s = Done y s' ->
  exists s1 p, eiter (fun c => n_traverse fuel file c p) (children node) s1 = Done tt s' /\
    (r_scopes s <> [] -> r_scopes s1 <> []).
Proof.
  intros fuel file node parent s y s' hp e.
  assert (h1 : ~ function_node node) by (intros h; destruct node; try destruct h; exact hp).
  assert (h2 : ~ arrow_like node) by (intros h; destruct node; try destruct h; exact hp).
  assert (h3 : ~ class_like node) by (intros h; destruct node; try destruct h; exact hp).
  cbn [n_traverse] in e. step e. step e. step e.
  pose proof (before_soft file node h1 h2 _ _ _ e1) as kb. pose proof e0 as ev. apply (visit_passes fuel file node parent hp) in ev.
  destruct x0 as [p|]; [|congruence]. rewrite (after_plain node parent h3 h1 h2) in e. injection e as _ <-.
  destruct x1. exists t0, p. split; [exact e2|]. intros hs. apply kb in hs.
  destruct (r_scopes t) as [|tp rest] eqn:es; [congruence|].
  pose proof (fr_visit fuel file node parent t tp rest rest es) as k. rewrite e0 in k. destruct k as (tp' & k & _). congruence.
Qed.
Lemma reaches : forall file n m, within n m -> forall fuel parent s y s', n_traverse fuel file n parent s = Done y s' ->
  exists fuel1 p s1 s2, n_traverse fuel1 file m p s1 = Done tt s2 /\ grown s2 s'.
Proof.
  induction 1 as [n|n c m hp hi hm IH]; intros fuel parent s y s' e.
  - destruct y. do 4 eexists. split; [exact e|]. apply grown_order.
  - destruct fuel as [|fuel]; [discriminate e|]. destruct (through0 _ _ _ _ _ _ _ hp e) as (s1 & p & k & _).
    apply in_split in hi as (l1 & l2 & hi). rewrite hi in k. apply iter_at in k as (s2 & s3 & k1 & k2 & k3).
    destruct (IH _ _ _ _ _ k2) as (f1 & q & t1 & t2 & h1 & h2). exists f1, q, t1, t2. split; [exact h1|].
    eapply (or_trans _ grown_order); [exact h2|]. eapply iter_grown, k3.
Qed.
Lemma framed_some : forall A (m : R A) s y s', framed m -> m s = Done y s' -> r_scopes s <> [] -> r_scopes s' <> [].
Proof.
  intros A m s y s' h e hs. destruct (r_scopes s) as [|tp rest] eqn:es; [congruence|].
  pose proof (h s tp rest rest es) as k. rewrite e in k. destruct k as (tp' & k & _). congruence.
Qed.
Lemma iter_framed : forall fuel file p l, framed (eiter (fun c => n_traverse fuel file c p) l).
Proof. intros. apply fr_iter. intros. apply fr_traverse. Qed.
Lemma body_shape : forall f body, body_of f body -> exists fn attrs l, children f = attrs ++ [fn] /\ passes fn /\
  children fn = l ++ [body].
Proof.
  intros f body h. destruct f; cbn [body_of] in h; try contradiction;
    match type of h with match ?g with _ => _ end => destruct g; try contradiction end;
    match type of h with match ?g with _ => _ end => destruct g; try contradiction end; subst;
    eexists; eexists; eexists; (split; [reflexivity|]); (split; [exact I|]); cbn [children opt_list];
    rewrite app_assoc; reflexivity.
Qed.
Lemma visit_function : forall fuel file node parent, function_node node ->
  gives (fun o : option N => o <> None) (n_visit fuel file node parent).
Proof. intros fuel file node parent h. destruct node; try destruct h; cbn [n_visit]; gi; discriminate. Qed.
Lemma function_body : forall file f body, body_of f body -> forall fuel parent s y s',
  n_traverse fuel file f parent s = Done y s' ->
  exists fuel1 p s1 s2, n_traverse fuel1 file body p s1 = Done tt s2 /\ grown s2 s' /\ r_scopes s1 <> [].
Proof.
  intros file f body hb fuel parent s y s' e. destruct fuel as [|fuel]; [discriminate e|].
  assert (hf : function_node f) by (destruct f; try destruct hb; exact I).
  destruct (function_shape f hf) as (name & k). rewrite k in e. take e as e1. unfold inner in e1.
  take e1 as e0. take e1 as e2.
  assert (g : grown t s').
  { revert e. apply (v_bind _ grown_order); [|intros _]; intros a b c q; injection q as _ <-; unfold grown; auto. }
  assert (s0 : r_scopes t0 <> []) by (eapply framed_some; [apply fr_enter_function|exact e0|discriminate]).
  assert (s1 : r_scopes t1 <> []) by (eapply framed_some; [apply fr_visit|exact e2|exact s0]).
  destruct (body_shape _ _ hb) as (fn & attrs & l & hc & hp & hl).
  assert (hx : x1 <> None) by (eapply visit_function; eassumption).
  destruct x1 as [p|]; [|congruence]. rewrite hc in e1.
  destruct x. apply iter_at in e1 as (u1 & u2 & k1 & k2 & k3). injection k3 as <-.
  assert (s2 : r_scopes u1 <> []) by (eapply framed_some; [apply iter_framed|exact k1|exact s1]).
  destruct fuel as [|fuel]; [discriminate k2|].
  destruct (through0 _ _ _ _ _ _ _ hp k2) as (v1 & q & h1 & h2). rewrite hl in h1.
  apply iter_at in h1 as (w1 & w2 & h3 & h4 & h5). injection h5 as <-.
  exists fuel, q, w1, w2. split; [exact h4|]. split; [exact g|]. eapply framed_some; [apply iter_framed|exact h3|]. auto.
Qed.

(** * C57 *)

(** C57: in the code of one function, all the places where a variable is
    written are recorded as uses of one and the same symbol.  The code is any
    syntax tree, analysed in any state with some local scope.

    Missing for the whole of C57: variables that are read in an assignment or for one of
    their members before they occur in another way, which are not recorded
    ([C57_refuted]), [$this], names that stand for another variable from some
    place on ([rebinds]), and the code of classes inside of the function. *)
Theorem C57_one_symbol_partial : forall fuel file node parent s s' x,
  n_traverse fuel file node parent s = Done tt s' -> r_scopes s <> [] ->
  x <> lit "this" -> ~ rebinds x node ->
  exists v, forall t, written_in x node t -> marked s' file t v.
Proof.
  intros fuel file node parent s s' x e hs hn hr. unfold written_in.
  assert (K : forall t, t_label t = Some x -> occurs node t \/ (exists t0, t_label t0 = Some x /\ follows node t0 t) ->
    exists v, bound x s' v /\ marked s' file t v).
  { intros t hl [h|(t0 & hl0 & h)]; [eapply occurs_marked; eassumption|eapply follows_marked; [exact hn|exact hl0|..]; eassumption]. }
  destruct (r_scopes s') as [|tp rest] eqn:es.
  - exists 0. intros t (hl & h). destruct (K t hl h) as (v & (tp & rest & b & _) & _). congruence.
  - exists (match findS x tp with Some v => v | None => 0 end). intros t (hl & h).
    destruct (K t hl h) as (v & (tp' & rest' & b1 & b2) & m). assert (tp' = tp) by congruence. subst tp'. rewrite b2. exact m.
Qed.

(** The variable that is known already, such as a parameter *)
Theorem C57_known_partial : forall fuel file node parent s s' x v,
  n_traverse fuel file node parent s = Done tt s' -> bound x s v -> x <> lit "this" -> ~ rebinds x node ->
  forall t, t_label t = Some x -> occurs node t \/ consults node t -> marked s' file t v.
Proof.
  intros fuel file node parent s s' x v e hb hn hr t hl [h|h]; [|eapply consults_marked; eassumption].
  assert (hs : r_scopes s <> []) by (destruct hb as (tp & rest & b & _); rewrite b; discriminate).
  destruct (occurs_marked file x hn _ _ _ _ _ _ _ hl hr h hs e) as (w & (tp & rest & b1 & b2) & m).
  apply (traverse_keep x _ _ _ _ hr _ _ _ hs e) in hb as (tp' & rest' & b3 & b4). congruence.
Qed.

(** In the words of the editor: when a file has been analysed, all the places
    where a function of that file has the variable are recorded for one symbol.
    That is what highlighting, finding references and renaming look at. *)
Theorem C57_function_partial : forall fuel path nodes s s' file top f body x,
  findS path (b_files s) = Some file -> collect_references fuel path nodes s = Done tt s' ->
  In top nodes -> within top f -> body_of f body -> x <> lit "this" -> ~ rebinds x body ->
  exists v, forall t, written_in x body t -> exists r, token_range t = Some r /\ recorded s' path v r.
Proof.
  intros fuel path nodes s s' file top f body x ef e hi hw hb hn hr.
  destruct (Prop_Definition.C50_recorded _ _ _ _ _ _ ef e) as (s1 & rs & s2 & _ & er & hrec).
  unfold resolve_names in er. destruct (eiter _ nodes _) as [u r1| |] eqn:ei; try discriminate er. injection er as <- <-.
  apply in_split in hi as (l1 & l2 & ->). destruct u. apply iter_at in ei as (t1 & t2 & _ & e2 & e3).
  destruct (reaches _ _ _ hw _ _ _ _ _ e2) as (f1 & p & u1 & u2 & e4 & g1).
  destruct (function_body _ _ _ hb _ _ _ _ _ e4) as (f2 & q & w1 & w2 & e5 & g2 & hs).
  destruct (C57_one_symbol_partial _ _ _ _ _ _ _ e5 hs hn hr) as (v & hv). exists v. intros t ht.
  destruct (hv t ht) as (r & h1 & h2). exists r. split; [exact h1|]. apply hrec.
  apply iter_grown in e3. apply e3, g1, g2, h2.
Qed.

(** So highlighting on one of these places shows all of them, if no other
    symbol is recorded there. *)
Theorem C57_highlight_partial : forall fuel path nodes s s' file top f body x order p t0 r0, reachable s' ->
  (forall m, Permutation (order m) m) ->
  findS path (b_files s) = Some file -> collect_references fuel path nodes s = Done tt s' ->
  In top nodes -> within top f -> body_of f body -> x <> lit "this" -> ~ rebinds x body ->
  written_in x body t0 -> token_range t0 = Some r0 -> in_range p (get_range r0) = true ->
  (forall i j r q, recorded s' path i r -> recorded s' path j q ->
     in_range p (get_range r) = true -> in_range p (get_range q) = true -> i = j) ->
  exists l, document_highlight order path p s' = Done (Some l) s' /\
  forall t, written_in x body t -> exists r, token_range t = Some r /\ In (get_range r) l.
Proof.
  intros fuel path nodes s s' file top f body x order p t0 r0 hre ho ef e hi hw hb hn hr h0 er0 hp hu.
  destruct (C57_function_partial _ _ _ _ _ _ _ _ _ _ ef e hi hw hb hn hr) as (v & hv).
  destruct (hv t0 h0) as (r & q1 & q2). assert (r = r0) by congruence. subst r.
  destruct (C41_highlight s' order path p hre ho) as (answer & ea & ha). destruct answer as [l|].
  - destruct ha as (i & (r1 & k1 & k2) & k3). assert (i = v) by (eapply hu; eassumption). subst i.
    exists l. split; [exact ea|]. intros t ht. destruct (hv t ht) as (r & q3 & q4). exists r. split; [exact q3|].
    apply k3. eauto.
  - rewrite (ha _ _ q2) in hp. discriminate hp.
Qed.

(** * C31: the place *)

Definition outside (s s' : rst) : Prop := r_class s' = r_class s \/ r_class s' = None.
Lemma outside_order : order outside.
Proof. constructor; unfold outside; [auto|]. intros s t u [h1|h1] [h2|h2]; rewrite ?h2; auto. Qed.

Lemma visit_place : forall fuel file node parent s p s', ~ class_like node -> r_container s = parent \/ function_node node \/ arrow_like node ->
  n_visit fuel file node parent s = Done (Some p) s' -> p = r_container s'.
Proof.
  intros fuel file node parent s p s' hc hp e. pose proof (visit_rests fuel file node parent hc _ _ _ e) as [_ k].
  assert (A : (function_node node \/ arrow_like node \/ (exists a b c d e f, node = NFunctionDefinitionStatement a b c d e f)) \/
              p = parent /\ ~ function_node node /\ ~ arrow_like node).
  { destruct node; try (exfalso; apply hc; exact I); try (left; left; exact I); try (left; right; left; exact I); try (left; right; right; do 6 eexists; reflexivity); right;
      (split; [|split; intros []]); revert e; cbn [n_visit];
      try (intros e; injection e as <- _; reflexivity);
      match goal with |- ?m s = _ -> _ => intros e;
        assert (g : gives (fun o => o = None \/ o = Some parent) m) by (gi; auto);
        apply g in e as [e|e]; congruence end. }
  destruct A as [A|(-> & h1 & h2)]; [|destruct hp as [hp|[hp|hp]]; [congruence|contradiction..]].
  assert (B : exists m : R unit, softly m /\ (forall t, n_visit fuel file node parent t = (edo m in elet sc <- eget r_container in eret (Some sc)) t)).
  { pose proof s_each. destruct A as [A|[A|(a & b & c & d & f & g & ->)]]; [destruct node; try destruct A; cbn [n_visit]..|cbn [n_visit]];
      try (eexists; split; [|reflexivity]; so);
      (exists (eret tt); split; [so|reflexivity]). }
  destruct B as (m & hm & B). rewrite B in e. take e as e1. injection e as <- <-. reflexivity.
Qed.

Lemma place : forall fuel file node parent s y s', n_traverse fuel file node parent s = Done y s' -> r_container s = parent ->
  r_container s' = parent /\ outside s s'.
Proof.
  induction fuel as [|fuel IH]; intros file node parent s y s' e hp; [discriminate e|].
  assert (L : forall l p s y s', eiter (fun c => n_traverse fuel file c p) l s = Done y s' -> r_container s = p ->
    r_container s' = p /\ outside s s').
  { induction l as [|c l IHl]; intros p s0 y0 s0' e0 h0; cbn [eiter] in e0.
    - injection e0 as _ <-. split; [exact h0|apply outside_order].
    - step e0. apply IH in e1 as [k1 k2]; [|exact h0]. apply IHl in e0 as [k3 k4]; [|exact k1]. split; [exact k3|].
      eapply (or_trans _ outside_order); eassumption. }
  destruct (class_dec node) as [hc|hc].
  { cbn [n_traverse] in e. step e. step e. step e.
    destruct node; try destruct hc; cbn [n_after] in e; injection e as _ <-; (split; [reflexivity|right; reflexivity]). }
  cbn [n_traverse] in e. step e. step e. step e.
  assert (K : outside s t /\ (r_container t = parent \/ function_node node \/ arrow_like node)).
  { destruct (sorts node) as [hk|[h1 h2]].
    - split; [|tauto]. clear - e1. left. pose proof s_find_kid as HF.
      assert (HS : forall c, every (fun a b => r_class b = r_class a) (set_container c)) by (intros c a b d q; injection q as _ <-; reflexivity).
      assert (HP : every (fun a b => r_class b = r_class a) push_scope) by (intros a b d q; injection q as _ <-; reflexivity).
      assert (HC : every (fun a b => r_class b = r_class a) clone_scope) by (intros a b d q; injection q as _ <-; reflexivity).
      assert (O : order (fun a b : rst => r_class b = r_class a)) by (constructor; [reflexivity|intros; congruence]).
      assert (inc : forall A (m : R A), softly m -> every (fun a b => r_class b = r_class a) m) by (intros A m h a b d q; apply h in q; apply q).
      assert (G : every (fun a b => r_class b = r_class a) (n_before file node)).
      { destruct node; cbn [n_before]; try apply (v_ret _ O);
          ev O inc ltac:(first [apply HS|apply HP|apply HC]). }
      apply G in e1. exact e1.
    - apply (before_soft file node h1 h2) in e1. split; [left; apply e1|]. left. rewrite <- hp. apply e1. }
  destruct K as [k1 k2].
  pose proof (visit_rests fuel file node parent hc _ _ _ e0) as [k3 k4].
  assert (k5 : outside t0 t1 /\ (r_container t0 = parent -> r_container t1 = parent)).
  { destruct x0 as [p|]; [|injection e2 as _ <-; split; [apply outside_order|auto]].
    apply visit_place in e0; [|exact hc|exact k2]. subst p. apply L in e2 as [h1 h2]; [|reflexivity]. split; [exact h2|congruence]. }
  assert (k6 : outside s t1).
  { eapply (or_trans _ outside_order); [exact k1|]. eapply (or_trans _ outside_order); [|apply k5]. left. exact k3. }
  destruct (sorts node) as [hk|[h1 h2]].
  - destruct hk as [hk|hk]; destruct node; try destruct hk; cbn [n_after] in e; injection e as _ <-; (split; [reflexivity|exact k6]).
  - rewrite (after_plain node parent hc h1 h2) in e. injection e as _ <-. split; [|exact k6]. apply k5. rewrite k4.
    destruct k2 as [k2|[k2|k2]]; [exact k2|contradiction..].
Qed.

(** C31: behind any syntax tree the place is the one before it: what follows is
    not taken for code of a function or class that the tree declares. *)
Theorem C31_place : forall fuel file node parent s s', n_traverse fuel file node parent s = Done tt s' ->
  r_container s = parent -> r_container s' = parent /\ (r_class s' = r_class s \/ r_class s' = None).
Proof. intros fuel file node parent s s' e h. exact (place _ _ _ _ _ _ _ e h). Qed.

(** So every statement of a file is analysed as code of the file, outside of
    all classes and functions, whatever stands before it. *)
Theorem C31_top_level : forall fuel file before s symbols index,
  eiter (fun node => n_traverse fuel file node file) before (resolver_new symbols index file) = Done tt s ->
  r_container s = file /\ r_class s = None /\ exists variables, r_scopes s = [variables].
Proof.
  intros fuel file before s a g e.
  assert (G : forall l s0 s1, eiter (fun node => n_traverse fuel file node file) l s0 = Done tt s1 -> r_container s0 = file -> r_class s0 = None ->
    r_container s1 = file /\ r_class s1 = None).
  { induction l as [|c l IH]; intros s0 s1 h k1 k2; cbn [eiter] in h; [injection h as <-; auto|]. step h.
    destruct (place _ _ _ _ _ _ _ e1 k1) as [k3 [k4|k4]]; apply IH in h; auto. congruence. }
  destruct (G _ _ _ e eq_refl eq_refl) as [h1 h2]. split; [exact h1|]. split; [exact h2|].
  pose proof (iter_framed fuel file file before (resolver_new a g file) [] [] [] eq_refl) as k. rewrite e in k.
  destruct k as (tp & k & _). eauto.
Qed.
End Locals.

(** * Cases *)


(** Lists of such places, for the cases below *)
Definition passes_b (n : Node) : bool :=
  match n with
  | NUseDeclaration _ _ _ _ | NTypeRef _ | NReturnType _ _ | NNamespaceStatement _ _
  | NClassStatement _ _ _ _ _ _ _ _ _ | NTraitStatement _ _ _ _ | NInterface _ _ _ _ _
  | NMethodDefinitionStatement _ _ _ _ _ _ _ _ _ _ | NNamedFunctionDefinitionStatement _ _ _ _ _
  | NArrowFunction _ _ _ _ _ _ _ _ _ _ | NFunctionArgument _ _ _ _ _ _ _ _
  | NVariable _ | NDocCommentVar _ _ _
  | NMember _ _ _ _ _ | NStaticMember _ _ _ _ _ => false
  | NBinary _ op _ => negb (tt_eqb (t_type op) TAssignment)
  | _ => true
  end.
Lemma passes_b_spec : forall n, passes_b n = true <-> passes n.
Proof.
  intros n. destruct n; cbn [passes_b passes]; try (split; [intros; exact I|reflexivity]);
    try (split; [discriminate|contradiction]).
  destruct (tt_eqb_spec (t_type token) TAssignment); split; intros; cbn [negb] in *; congruence.
Qed.
Fixpoint occurring (k : nat) (n : Node) : list Token :=
  match k with
  | O => []
  | S k =>
      if passes_b n then flat_map (occurring k) (children n)
      else match n with
           | NVariable t => [t]
           | NBinary (NVariable t) _ _ => [t]
           | _ => []
           end
  end.
Lemma occurring_ok : forall k n t, In t (occurring k n) -> occurs n t.
Proof.
  induction k as [|k IH]; intros n t h; [destruct h|]. cbn [occurring] in h. destruct (passes_b n) eqn:e.
  - apply passes_b_spec in e. apply in_flat_map in h as (c & h1 & h2). eapply oc_in; eauto.
  - destruct n; try destruct h as [h|h]; try destruct h; try constructor.
    destruct n1; try destruct h as [h|h]; try destruct h. constructor. cbn in e.
    destruct (tt_eqb_spec (t_type token) TAssignment); [assumption|discriminate].
Qed.
Fixpoint reading (k : nat) (n : Node) : list Token :=
  match k with
  | O => []
  | S k =>
      match n with
      | NVariable t => [t]
      | NBinary l op r => if tt_eqb (t_type op) TAssignment then [] else reading k l ++ reading k r
      | NCall c _ l _ => flat_map (reading k) l ++ reading k c
      | NMember o _ _ _ _ => reading k o
      | NGrouping e => reading k e
      | _ => []
      end
  end.
Lemma reading_ok : forall k n t, In t (reading k n) -> reads n t.
Proof.
  induction k as [|k IH]; intros n t h; [destruct h|]. destruct n; cbn [reading] in h; try solve [destruct h].
  all: match goal with
  | |- reads (NBinary _ ?op _) _ => destruct (tt_eqb_spec (t_type op) TAssignment); [destruct h|];
      apply in_app_iff in h as [h|h]; [apply rd_left; auto|apply rd_right; auto]
  | |- reads (NVariable _) _ => destruct h as [<-|[]]; constructor
  | |- reads (NCall _ _ _ _) _ => apply in_app_iff in h as [h|h]; [|apply rd_callee; auto];
      apply in_flat_map in h as (c & h1 & h2); eapply rd_argument; eauto
  | |- _ => constructor; auto
  end.
Qed.
Fixpoint consulting (k : nat) (n : Node) : list Token :=
  match k with
  | O => []
  | S k =>
      if passes_b n then flat_map (consulting k) (children n)
      else match n with
           | NMember o _ _ _ _ => reading k o
           | NBinary _ _ r => reading k r
           | _ => []
           end
  end.
Lemma consulting_ok : forall k n t, In t (consulting k n) -> consults n t.
Proof.
  induction k as [|k IH]; intros n t h; [destruct h|]. cbn [consulting] in h. destruct (passes_b n) eqn:e.
  - apply passes_b_spec in e. apply in_flat_map in h as (c & h1 & h2). eapply co_in; eauto.
  - destruct n; try destruct h.
    + cbn in e. destruct (tt_eqb_spec (t_type token) TAssignment); [|discriminate]. apply co_right; [assumption|]. eapply reading_ok, h.
    + apply co_member. constructor. eapply reading_ok, h.
Qed.
Definition named (x : str) (t : Token) : bool := match t_label t with Some l => str_eqb l x | None => false end.
Fixpoint later (k : nat) (x : str) (l : list Node) : list Token :=
  match l with
  | [] => []
  | m :: l => if existsb (named x) (occurring k m) then flat_map (consulting k) l else later k x l
  end.
Fixpoint following (k : nat) (x : str) (n : Node) : list Token :=
  match k with
  | O => []
  | S k => if passes_b n then later k x (children n) ++ flat_map (following k x) (children n) else []
  end.
Lemma following_ok : forall x k n t, In t (following k x n) -> exists t0, t_label t0 = Some x /\ follows n t0 t.
Proof.
  intros x. induction k as [|k IH]; intros n t h; [destruct h|]. cbn [following] in h.
  destruct (passes_b n) eqn:e; [|destruct h]. apply passes_b_spec in e. apply in_app_iff in h as [h|h].
  - assert (G : forall l, In t (later k x l) -> exists l1 m l2 c l3 t0, l = l1 ++ m :: l2 ++ c :: l3 /\
      t_label t0 = Some x /\ occurs m t0 /\ consults c t).
    { induction l as [|m l IHl]; cbn [later]; [intros []|]. destruct (existsb _ _) eqn:eo.
      - intros hf. apply in_flat_map in hf as (c & h1 & h2). apply in_split in h1 as (l2 & l3 & ->).
        apply existsb_exists in eo as (t0 & h3 & h4). exists [], m, l2, c, l3, t0. split; [reflexivity|].
        split; [unfold named in h4; destruct (t_label t0) as [lb|]; [|discriminate]; destruct (str_eqb_spec lb x); congruence|].
        split; [eapply occurring_ok, h3|eapply consulting_ok, h2].
      - intros hf. apply IHl in hf as (l1 & m' & l2 & c & l3 & t0 & -> & hh). exists (m :: l1), m', l2, c, l3, t0. auto. }
    apply G in h as (l1 & m & l2 & c & l3 & t0 & hc & hl & ho & hk). exists t0. split; [exact hl|]. eapply fo_here; eauto.
  - apply in_flat_map in h as (c & h1 & h2). apply IH in h2 as (t0 & h3 & h4). exists t0. split; [exact h3|]. eapply fo_in; eauto.
Qed.
Definition writing (k : nat) (x : str) (n : Node) : list Token := List.filter (named x) (occurring k n ++ following k x n).
Lemma writing_ok : forall k x n t, In t (writing k x n) -> written_in x n t.
Proof.
  intros k x n t h. apply filter_In in h as [h1 h2]. unfold named in h2. split.
  - destruct (t_label t) as [l|]; [|discriminate]. destruct (str_eqb_spec l x); congruence.
  - apply in_app_iff in h1 as [h1|h1]; [left; eapply occurring_ok, h1|right; eapply following_ok, h1].
Qed.
Fixpoint steady (k : nat) (x : str) (n : Node) : bool :=
  match k with
  | O => false
  | S k =>
      match n with
      | NCatchBlock _ _ _ v _ _ | NForEachStatement _ _ _ _ (NArrayElement _ _ (NVariable v)) _ _
      | NFunctionArgument _ v _ _ _ _ _ _ => negb (named x v)
      | _ => true
      end && forallb (steady k x) (children n)
  end.
Lemma steady_ok : forall x k n, steady k x n = true -> ~ rebinds x n.
Proof.
  intros x. induction k as [|k IH]; intros n h hr; [discriminate h|]. cbn [steady] in h. apply Bool.andb_true_iff in h as [h1 h2].
  destruct hr as [a b l v c body hl|a b coll c kk op v d body hl|ty name a b c d e f hl|n c hn hi hc].
  - unfold named in h1. rewrite hl in h1. destruct (str_eqb_spec x x); [discriminate h1|congruence].
  - unfold named in h1. rewrite hl in h1. destruct (str_eqb_spec x x); [discriminate h1|congruence].
  - unfold named in h1. rewrite hl in h1. destruct (str_eqb_spec x x); [discriminate h1|congruence].
  - rewrite forallb_forall in h2. eapply IH; [apply h2, hi|exact hc].
Qed.

Definition text57 : string :=
  "<?php function f(int $n) { $y = g($n); if ($y) { echo $y + 1; $z = $y; } $y->m(); return [$y, $n]; }".
Definition nodes57 : list Node := Eval vm_compute in match syntax 400 (lit text57) with Some l => l | None => [] end.
Definition body57 : Node :=
  Eval vm_compute in match nodes57 with
  | [NNamedFunctionDefinitionStatement _ _ _ (NFunctionDefinitionStatement _ _ _ _ (Some b) _) _] => b
  | _ => NVariable (mkToken 0 0 TVariable None None)
  end.
Definition events57 : list ((str -> option str) * event) :=
  [(disk2 "<?php" text57, EvIndex [pA; pB]); (disk2 "<?php" text57, EvInitialized); (disk2 "<?php" text57, EvOpen pB [])].

(** The six places of [$y], two of them read in an assignment or for a member *)
Example C57_case :
  let s := state_after events57 in
  let s' := state_after (events57 ++ [(disk2 "<?php" text57, EvOpen pB [])]) in
  reachable s' /\ syntax 400 (lit text57) = Some nodes57 /\
  (exists file, findS pB (b_files s) = Some file) /\ collect_references 400 pB nodes57 s = Done tt s' /\
  (exists f, In f nodes57 /\ within f f /\ body_of f body57) /\ lit "y" <> lit "this" /\ ~ rebinds (lit "y") body57 /\
  Forall (written_in (lit "y") body57) (writing 50 (lit "y") body57) /\
  map t_col (writing 50 (lit "y") body57) = [27; 43; 54; 90; 67; 73; 67; 67] /\
  ~ rebinds (lit "n") body57 /\ map t_col (List.filter (named (lit "n")) (occurring 50 body57)) = [94] /\
  map t_col (List.filter (named (lit "n")) (consulting 50 body57)) = [34].
Proof.
  cbv zeta. split; [apply state_after_reachable|]. split; [vm_compute; reflexivity|].
  split; [eexists; vm_compute; reflexivity|]. split; [vm_compute; reflexivity|].
  split; [eexists; split; [left; reflexivity|]; split; [constructor|reflexivity]|].
  split; [discriminate|]. split; [apply (steady_ok _ 50); vm_compute; reflexivity|].
  split; [apply Forall_forall; intros t; apply writing_ok|]. split; [vm_compute; reflexivity|].
  split; [apply (steady_ok _ 50); vm_compute; reflexivity|]. split; vm_compute; reflexivity.
Qed.

(** A class with a method, and then code of the file *)
Definition nodes31 : list Node :=
  Eval vm_compute in match syntax 400 (lit "<?php class A { function m() { $x = 1; } } if ($y) { function g() { } }") with Some l => l | None => [] end.
Definition state31 : bst :=
  let d := disk2 "<?php" "<?php class A { function m() { $x = 1; } } if ($y) { function g() { } }" in
  state_after [(d, EvIndex [pA; pB]); (d, EvInitialized)].
Example C31_place_case : exists file s, findS pB (b_files state31) = Some file /\ List.length nodes31 = 2%nat /\
  eiter (fun node => n_traverse 400 file node file) nodes31 (resolver_new (b_arena state31) (b_global state31) file) = Done tt s /\
  exists variables, r_scopes s = [variables] /\ keys variables = [lit "y"].
Proof. do 2 eexists. split; [vm_compute; reflexivity|]. split; [reflexivity|]. split; [vm_compute; reflexivity|]. eexists. split; reflexivity. Qed.

(** The full statement is false: a variable whose first place is on the right
    of an assignment is not recorded there, its later places are. *)
Definition text57b : string := "<?php function f() { $z = $y; echo $y; }".
Definition state57b : bst :=
  state_after [(disk2 "<?php" text57b, EvIndex [pA; pB]); (disk2 "<?php" text57b, EvInitialized); (disk2 "<?php" text57b, EvOpen pB [])].
Theorem C57_refuted : reachable state57b /\
  (exists v, recorded state57b pB v (mkRange 35 0 37 0)) /\
  forall v r, recorded state57b pB v r -> in_range (mkPos 0 26) (get_range r) = false.
Proof.
  split; [apply state_after_reachable|]. split.
  - eexists. do 2 eexists. split; [vm_compute; reflexivity|].
    cbn [In]. split; [right; right; left; reflexivity|].
    cbn [In]. auto.
  - intros v r (m & rs & h1 & h2 & h3).
    match type of h1 with ?l = _ => let l' := eval vm_compute in l in change l with l' in h1 end.
    injection h1 as <-. cbn [In] in h2.
    repeat (destruct h2 as [h2|h2]; [injection h2 as <- <-; repeat (destruct h3 as [<-|h3]; [vm_compute; reflexivity|]); destruct h3|]).
    destruct h2.
Qed.

Print Assumptions C57_one_symbol_partial.
Print Assumptions C57_known_partial.
Print Assumptions C57_function_partial.
Print Assumptions C57_highlight_partial.
Print Assumptions C57_refuted.
Print Assumptions C31_place.
Print Assumptions C31_top_level.
