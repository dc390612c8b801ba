(** Property C31: local scopes. *)

From Coq Require Import Permutation.
From Verif Require Import Base Token Scanner Node DocBlock Parser Assoc AssocFacts Arena ArenaFacts
  Symbol EnvMonad EnvFacts Workspace WorkspaceFacts Resolver SpecNames ResolverFacts
  Backend BackendFacts SpecServer ServerInv Prop_Server Prop_Names.

Local Notation findS := (find str_eqb).
Local Existing Instance ascii_runtime | 9.
Local Existing Instance plain_hashing | 9.
Local Open Scope string_scope.
Local Open Scope N_scope.
Local Open Scope list_scope.

(** * Specification *)

(** A state with other local scopes *)
Definition scoped (sc : list (list (str * N))) (s : rst) : rst :=
  mkRst (r_arena s) (r_global s) sc (r_class s) (r_container s) (r_refs s) (r_diags s) (r_cache s).

(** Named functions and methods *)
Definition function_node (n : Node) : Prop :=
  match n with
  | NNamedFunctionDefinitionStatement _ _ _ _ _ | NMethodDefinitionStatement _ _ _ _ _ _ _ _ _ _ => True
  | _ => False
  end.

(** * Proofs *)

(** A computation that looks at the innermost scope at most *)
Definition framed {A} (m : R A) : Prop :=
  forall s top rest rest', r_scopes s = top :: rest ->
    match m s with
    | Done x s' => exists top', r_scopes s' = top' :: rest /\
        m (scoped (top :: rest') s) = Done x (scoped (top' :: rest') s')
    | Panic => m (scoped (top :: rest') s) = Panic
    | Fuel => m (scoped (top :: rest') s) = Fuel
    end.

Lemma fr_ret : forall A (x : A), framed (eret x).
Proof. intros A x s t r r' h. cbn. exists t. auto. Qed.
Lemma fr_panic : forall A, framed (@epanic rst A).
Proof. intros A s t r r' h. reflexivity. Qed.
Lemma fr_fuel : forall A, framed (@efuel rst A).
Proof. intros A s t r r' h. reflexivity. Qed.
Lemma fr_opt : forall A (o : option A), framed (eopt o).
Proof. intros A [x|]; [apply fr_ret|apply fr_panic]. Qed.
Lemma fr_bind : forall A B (m : R A) (f : A -> R B), framed m -> (forall x, framed (f x)) ->
  framed (ebind m f).
Proof.
  intros A B m f hm hf s t r r' h. unfold ebind. specialize (hm s t r r' h).
  destruct (m s) as [x s1| |]; [|rewrite hm; auto..].
  destruct hm as (t1 & h1 & h2). rewrite h2. apply hf. exact h1.
Qed.
Lemma fr_iter : forall A (f : A -> R unit) l, (forall x, framed (f x)) -> framed (eiter f l).
Proof. intros A f l hf. induction l; cbn [eiter]; [apply fr_ret|apply fr_bind; auto]. Qed.
Lemma fr_map : forall A B (f : A -> R B) l, (forall x, framed (f x)) -> framed (emap f l).
Proof.
  intros A B f l hf. induction l; cbn [emap]; [apply fr_ret|].
  apply fr_bind; auto. intros. apply fr_bind; auto. intros. apply fr_ret.
Qed.
Lemma fr_fold : forall A B (f : B -> A -> R B) l b, (forall x y, framed (f x y)) -> framed (efold f b l).
Proof.
  intros A B f l b hf. revert b. induction l; intros b; cbn [efold]; [apply fr_ret|apply fr_bind; auto].
Qed.
Lemma fr_find : forall A B (f : A -> R (option B)) l, (forall x, framed (f x)) -> framed (efind f l).
Proof.
  intros A B f l hf. induction l; cbn [efind]; [apply fr_ret|].
  apply fr_bind; auto. intros [x|]; auto using fr_ret.
Qed.
(** Reading and writing the other parts of the state *)
Lemma fr_get : forall A (f : rst -> A), (forall sc s, f (scoped sc s) = f s) -> framed (eget f).
Proof. intros A f hf s t r r' h. unfold eget. exists t. rewrite hf. auto. Qed.
Lemma fr_mod : forall (f : rst -> rst), (forall sc s, f (scoped sc s) = scoped sc (f s)) ->
  (forall s, r_scopes (f s) = r_scopes s) -> framed (emod f).
Proof. intros f hf hs s t r r' h. unfold emod. exists t. rewrite hf, hs. auto. Qed.
Lemma fr_arena : forall A (m : R A),
  (forall sc s, m (scoped sc s) = match m s with
                                  | Done x s' => Done x (scoped sc s')
                                  | Panic => Panic | Fuel => Fuel
                                  end) ->
  (forall s x s', m s = Done x s' -> r_scopes s' = r_scopes s) -> framed m.
Proof.
  intros A m h1 h2 s t r r' h. rewrite h1. destruct (m s) as [x s'| |] eqn:e; auto.
  exists t. split; auto. rewrite (h2 _ _ _ e). auto.
Qed.

Ltac arena_op := apply fr_arena; [intros sc s|intros s x s' e].

Lemma fr_data : forall i, framed (e_data i).
Proof.
  intros i. arena_op.
  - unfold e_data. cbn. destruct (data (r_arena s) i); reflexivity.
  - unfold e_data in e. destruct (data _ i); congruence.
Qed.
Lemma fr_kids : forall i, framed (e_kids i).
Proof.
  intros i. arena_op.
  - unfold e_kids. cbn. destruct (kids (r_arena s) i); reflexivity.
  - unfold e_kids in e. destruct (kids _ i); congruence.
Qed.
Lemma fr_top : forall i, framed (e_top i).
Proof.
  intros i. arena_op.
  - unfold e_top. cbn. destruct (top (r_arena s) i); reflexivity.
  - unfold e_top in e. destruct (top _ i); congruence.
Qed.
Lemma fr_new : forall d, framed (e_new d).
Proof.
  intros i. arena_op.
  - reflexivity.
  - unfold e_new in e. destruct (new_node _ _). injection e as _ <-. reflexivity.
Qed.
Lemma fr_append : forall p c, framed (e_append p c).
Proof.
  intros p c. arena_op.
  - unfold e_append. cbn. destruct (append p c (r_arena s)); reflexivity.
  - unfold e_append in e. destruct (append _ _ _); [|discriminate]. injection e as _ <-. reflexivity.
Qed.
Lemma fr_update : forall i f, framed (e_update i f).
Proof.
  intros p c. arena_op.
  - unfold e_update. cbn. destruct (update p c (r_arena s)); reflexivity.
  - unfold e_update in e. destruct (update _ _ _); [|discriminate]. injection e as _ <-. reflexivity.
Qed.

Lemma fr_set_class : forall c, framed (set_class_ c).
Proof. intros. apply fr_mod; reflexivity. Qed.
Lemma fr_set_container : forall c, framed (set_container c).
Proof. intros. apply fr_mod; reflexivity. Qed.
Lemma fr_note : forall n, framed (note n).
Proof. intros. apply fr_mod; reflexivity. Qed.
Lemma fr_cache_put : forall k v, framed (cache_put k v).
Proof. intros. apply fr_mod; reflexivity. Qed.
Lemma fr_reference : forall f r n, framed (reference f r n).
Proof. intros. apply fr_mod; reflexivity. Qed.
Lemma fr_class : framed (eget r_class).
Proof. apply fr_get; reflexivity. Qed.
Lemma fr_container : framed (eget r_container).
Proof. apply fr_get; reflexivity. Qed.
Lemma fr_global : framed (eget r_global).
Proof. apply fr_get; reflexivity. Qed.
Lemma fr_cache : framed (eget r_cache).
Proof. apply fr_get; reflexivity. Qed.

Lemma fr_local : forall t, framed (get_local t).
Proof. intros t s tp r r' h. unfold get_local. exists tp. rewrite h. cbn. auto. Qed.
Lemma fr_reference_local : forall f t n, framed (reference_local f t n).
Proof. intros. unfold reference_local. apply fr_bind; [apply fr_opt|intros; apply fr_reference]. Qed.

Lemma fr_scopes : forall A (f : list (list (str * N)) -> R A),
  (forall s tp r r', r_scopes s = tp :: r ->
    match f (tp :: r) s with
    | Done x s' => exists top', r_scopes s' = top' :: r /\
        f (tp :: r') (scoped (tp :: r') s) = Done x (scoped (top' :: r') s')
    | Panic => f (tp :: r') (scoped (tp :: r') s) = Panic
    | Fuel => f (tp :: r') (scoped (tp :: r') s) = Fuel
    end) -> framed (elet l <- eget r_scopes in f l).
Proof. intros A f hf s tp r r' h. unfold ebind, eget. rewrite h. cbn [scoped r_scopes]. apply hf. exact h. Qed.

Lemma fr_declare : forall f t v, framed (declare_local_if_new f t v).
Proof.
  intros f t v. unfold declare_local_if_new. apply fr_scopes. intros s tp r r' h.
  destruct (t_label t) as [name|]; [|apply fr_ret; auto].
  destruct (findS name tp) as [n|].
  - apply fr_bind; auto using fr_reference_local. intros. apply fr_ret.
  - unfold ebind at 1 3 5 7. cbn [set_scopes emod].
    match goal with |- context [edo reference_local f t v in eret (Some v)] =>
      pose proof (fr_bind _ _ (reference_local f t v) (fun _ => eret (Some v)) (fr_reference_local f t v)
        (fun _ => fr_ret _ _)) as hb end.
    specialize (hb (mkRst (r_arena s) (r_global s) (put str_eqb name v tp :: r) (r_class s) (r_container s)
             (r_refs s) (r_diags s) (r_cache s)) (put str_eqb name v tp) r r' eq_refl).
    exact hb.
Qed.

Lemma fr_overwrite : forall f t v b, framed (declare_or_overwrite_local f t v b).
Proof.
  intros f t v b. unfold declare_or_overwrite_local. apply fr_scopes. intros s tp r r' h.
  assert (hk : framed (if b then reference_local f t v else eret tt))
    by (destruct b; [apply fr_reference_local|apply fr_ret]).
  destruct (t_label t) as [name|].
  - apply (hk (mkRst (r_arena s) (r_global s) (put str_eqb name v tp :: r) (r_class s) (r_container s)
             (r_refs s) (r_diags s) (r_cache s)) (put str_eqb name v tp) r r' eq_refl).
  - apply (hk s tp r r' h).
Qed.

Lemma fr_find_kid : forall i p, framed (e_find_kid i p).
Proof.
  intros. unfold e_find_kid. apply fr_bind; [apply fr_kids|]. intros.
  apply fr_find. intros. apply fr_bind; [apply fr_data|]. intros. apply fr_ret.
Qed.
Lemma fr_new_local : forall d, framed (new_local d).
Proof.
  intros. unfold new_local. apply fr_bind; [apply fr_new|]. intros.
  apply fr_bind; [apply fr_container|]. intros. apply fr_bind; [apply fr_append|]. intros. apply fr_ret.
Qed.

#[local] Hint Resolve fr_ret fr_panic fr_fuel fr_opt fr_data fr_kids fr_top fr_new fr_append fr_update
  fr_set_class fr_set_container fr_note fr_cache_put fr_reference fr_class fr_container fr_global
  fr_cache fr_local fr_reference_local fr_declare fr_overwrite fr_find_kid fr_new_local : framed.

Ltac fr :=
  repeat (intros; first
    [ solve [auto with framed]
    | lazymatch goal with
      | |- framed (let '(_, _) := ?x in _) => destruct x
      | |- framed (match ?x with _ => _ end) => destruct x
      | |- framed (ebind _ _) => apply fr_bind
      | |- framed (eiter _ _) => apply fr_iter
      | |- framed (emap _ _) => apply fr_map
      | |- framed (efold _ _ _) => apply fr_fold
      | |- framed (efind _ _) => apply fr_find
      end ]).

Section Frames.
Context {RT : Runtime} {HH : Hashing}.

Lemma fr_fq : forall n, framed (resolve_fully_qualified n).
Proof. unfold resolve_fully_qualified. fr. Qed.

Section Members.
Variable resolve : TypeRef -> N -> bool -> R (option N).
Variable all : N -> R members.
Hypothesis hr : forall tr n b, framed (resolve tr n b).
Hypothesis ha : forall n, framed (all n).

Lemma fr_parent_nodes : forall me ctx, framed (parent_nodes resolve me ctx).
Proof. unfold parent_nodes. fr. Qed.
Lemma fr_unique_parent : forall me ctx, framed (unique_parent resolve me ctx).
Proof. unfold unique_parent. intros. apply fr_bind; [apply fr_parent_nodes|fr]. Qed.
Lemma fr_resolve_all : forall ctx l, framed (resolve_all resolve ctx l).
Proof. induction l; cbn [resolve_all]; fr. Qed.
Lemma fr_own : forall ctx, framed (own_symbols ctx).
Proof. unfold own_symbols. fr. Qed.
Lemma fr_trait_symbols : forall me ctx, framed (trait_symbols resolve all me ctx).
Proof. unfold trait_symbols. fr. Qed.
Lemma fr_insteadof : forall ctx m alt, framed (apply_insteadof resolve ctx m alt).
Proof. unfold apply_insteadof. intros. destruct alt; [fr|]. apply fr_bind; [apply fr_resolve_all|fr]. Qed.
Lemma fr_as : forall ctx o m alt, framed (apply_as resolve ctx o m alt).
Proof. unfold apply_as. fr. Qed.
Lemma fr_get_imports : forall me ctx, framed (get_imports resolve all me ctx).
Proof.
  unfold get_imports. intros. apply fr_bind; [apply fr_trait_symbols|]. intros.
  apply fr_bind; [apply fr_fold; intros; apply fr_insteadof|]. intros.
  apply fr_bind; [fr|]. intros. apply fr_fold. intros. apply fr_as.
Qed.
Lemma fr_inherited : forall me ctx, framed (inherited_symbols resolve all me ctx).
Proof. unfold inherited_symbols. intros. apply fr_bind; [apply fr_parent_nodes|fr]. Qed.
End Members.

Lemma fr_current_namespace : forall d f, framed (current_namespace d f).
Proof. unfold current_namespace. fr. Qed.
#[local] Hint Resolve fr_fq fr_parent_nodes fr_unique_parent fr_resolve_all fr_own fr_trait_symbols fr_insteadof
  fr_as fr_get_imports fr_inherited fr_current_namespace : framed.

Lemma fr_resolve : forall fuel tr n b, framed (resolve_type_ref fuel tr n b).
Proof. induction fuel as [|fuel IH]; intros; cbn [resolve_type_ref]; fr. Qed.
#[local] Hint Resolve fr_resolve : framed.
Lemma fr_all : forall fuel n, framed (get_all_symbols fuel n).
Proof. induction fuel as [|fuel IH]; intros; cbn [get_all_symbols]; fr. Qed.
#[local] Hint Resolve fr_all : framed.
Lemma fr_variable_type : forall fuel n l, framed (variable_type fuel n l).
Proof. induction l; cbn [variable_type]; fr. Qed.
#[local] Hint Resolve fr_variable_type : framed.

Lemma fr_chain_root : forall fuel again file node cur chain, (forall n, framed (again n)) ->
  framed (chain_root fuel again file node cur chain).
Proof.
  induction fuel as [|fuel IH]; intros again file node cur chain hg; cbn [chain_root]; [fr|].
  assert (IH' : forall cur chain, framed (chain_root fuel again file node cur chain)) by auto. clear IH.
  destruct cur; fr.
Qed.
#[local] Hint Resolve fr_chain_root : framed.
Lemma fr_member_type : forall fuel fname link root l, framed (member_type fuel fname link root l).
Proof. induction l; cbn [member_type]; fr. Qed.
#[local] Hint Resolve fr_member_type : framed.
Lemma fr_follow : forall fuel file fname minimal chain root, framed (follow_chain fuel file fname minimal root chain).
Proof. induction chain; intros; cbn [follow_chain]; fr. Qed.
#[local] Hint Resolve fr_follow : framed.
Lemma fr_member : forall fuel file node, framed (resolve_member_type fuel file node).
Proof. induction fuel as [|fuel IH]; intros; cbn [resolve_member_type]; fr. Qed.
#[local] Hint Resolve fr_member : framed.
Lemma fr_each : forall fuel l p, framed (resolve_each fuel l p).
Proof. unfold resolve_each. fr. Qed.
Lemma fr_resolved_ref : forall fuel tr p, framed (resolved_ref fuel tr p).
Proof. unfold resolved_ref. fr. Qed.
#[local] Hint Resolve fr_each fr_resolved_ref : framed.
Lemma fr_visit : forall fuel file node parent, framed (n_visit fuel file node parent).
Proof. intros. unfold n_visit, enter_class. destruct node; fr. Qed.
#[local] Hint Resolve fr_visit : framed.

(** What happens in the scope of a function *)
Definition enter_function (file : N) (name : Token) : R unit :=
  elet method_name <- eopt (display_token name) in
  elet sc <- eget r_container in
  elet o <- e_find_kid sc (fun d => str_eqb (sym_name d) method_name) in
  match o with
  | Some method =>
      edo set_container method in
      elet range <- eopt (token_range name) in
      reference file range method
  | None => eret tt
  end.
Definition enter_arrow (token : Token) : R unit :=
  elet range <- eopt (token_range token) in
  elet sc <- eget r_container in
  elet o <- e_find_kid sc (fun d => str_eqb (sym_name d) (arrow_name range)) in
  match o with
  | Some method => set_container method
  | None => eret tt
  end.
Definition inner (enter : R unit) (fuel : nat) (file : N) (node : Node) (parent : N) : R unit :=
  edo enter in
  elet next <- n_visit fuel file node parent in
  match next with
  | None => eret tt
  | Some p => eiter (fun c => n_traverse fuel file c p) (children node)
  end.

Lemma fr_enter_function : forall f t, framed (enter_function f t).
Proof. unfold enter_function. fr. Qed.
Lemma fr_enter_arrow : forall t, framed (enter_arrow t).
Proof. unfold enter_arrow. fr. Qed.

Lemma traverse_shape : forall fuel file node parent s,
  n_traverse (S fuel) file node parent s =
  (edo inner (n_before file node) fuel file node parent in n_after node parent) s.
Proof.
  intros. cbn [n_traverse]. unfold inner, ebind at 1 4 5.
  destruct (n_before file node s) as [[] s1| |]; auto.
  unfold ebind at 1 3. destruct (n_visit fuel file node parent s1) as [o s2| |]; auto.
Qed.

Lemma inner_bind : forall (a b : R unit) fuel file node parent s s1, a s = Done tt s1 ->
  inner (edo a in b) fuel file node parent s = inner b fuel file node parent s1.
Proof. intros a b fuel file node parent s s1 e. unfold inner, ebind at 1 2. rewrite e. reflexivity. Qed.

Lemma function_shape : forall node, function_node node -> exists name, forall fuel file parent s,
  n_traverse (S fuel) file node parent s =
  (edo inner (enter_function file name) fuel file node parent in edo pop_scope in set_container parent)
    (scoped ([] :: r_scopes s) s).
Proof.
  intros node h. destruct node; try contradiction; eexists; intros fuel file parent s; rewrite traverse_shape;
    cbn [n_before n_after]; fold (enter_function file name); unfold ebind at 1;
    rewrite (inner_bind push_scope _ _ _ _ _ _ (scoped ([] :: r_scopes s) s) eq_refl); reflexivity.
Qed.

Lemma fr_inner : forall enter fuel file node parent, framed enter ->
  (forall file node parent, framed (n_traverse fuel file node parent)) ->
  framed (inner enter fuel file node parent).
Proof. intros. unfold inner. fr. Qed.

Lemma twice : forall a b s, scoped a (scoped b s) = scoped a s.
Proof. reflexivity. Qed.

(** A computation with a scope of its own *)
Lemma own_scope : forall (body : R unit) parent t, framed body -> forall s,
  match (edo body in edo pop_scope in set_container parent) (scoped (t :: r_scopes s) s) with
  | Done _ s' => r_scopes s' = r_scopes s /\ forall sc,
      (edo body in edo pop_scope in set_container parent) (scoped (t :: sc) s) = Done tt (scoped sc s')
  | Panic => forall sc, (edo body in edo pop_scope in set_container parent) (scoped (t :: sc) s) = Panic
  | Fuel => forall sc, (edo body in edo pop_scope in set_container parent) (scoped (t :: sc) s) = Fuel
  end.
Proof.
  intros body parent t hb s.
  pose proof (fun sc => hb (scoped (t :: r_scopes s) s) t (r_scopes s) sc eq_refl) as k.
  unfold ebind at 1. destruct (body (scoped (t :: r_scopes s) s)) as [[] s1| |] eqn:e.
  - assert (hs : r_scopes (scoped (tl (r_scopes s1)) s1) = r_scopes s).
    { destruct (k []) as (t1 & h1 & _). cbn. rewrite h1. reflexivity. }
    cbn. split; [exact hs|]. intros sc. destruct (k sc) as (t1 & h1 & h2).
    unfold ebind at 1. rewrite twice in h2. rewrite h2. reflexivity.
  - intros sc. unfold ebind at 1. specialize (k sc). rewrite twice in k. rewrite k. reflexivity.
  - intros sc. unfold ebind at 1. specialize (k sc). rewrite twice in k. rewrite k. reflexivity.
Qed.

Lemma fr_before : forall file node,
  match node with
  | NNamedFunctionDefinitionStatement _ _ _ _ _ | NMethodDefinitionStatement _ _ _ _ _ _ _ _ _ _
  | NArrowFunction _ _ _ _ _ _ _ _ _ _ => True
  | _ => framed (n_before file node)
  end.
Proof. intros. destruct node; auto; unfold n_before; fr. Qed.
Lemma fr_after : forall node parent,
  match node with
  | NNamedFunctionDefinitionStatement _ _ _ _ _ | NMethodDefinitionStatement _ _ _ _ _ _ _ _ _ _
  | NArrowFunction _ _ _ _ _ _ _ _ _ _ => True
  | _ => framed (n_after node parent)
  end.
Proof. intros. destruct node; auto; unfold n_after, leave_class; fr. Qed.

Lemma fr_traverse : forall fuel file node parent, framed (n_traverse fuel file node parent).
Proof.
  induction fuel as [|fuel IH]; intros file node parent; [apply fr_fuel|].
  assert (plain : framed (n_before file node) -> framed (n_after node parent) ->
    framed (n_traverse (S fuel) file node parent)).
  { intros h1 h2 s t r r' h. rewrite !traverse_shape.
    apply (fr_bind _ _ (inner (n_before file node) fuel file node parent) (fun _ => n_after node parent)); auto.
    apply fr_inner; auto. }
  assert (named : function_node node -> framed (n_traverse (S fuel) file node parent)).
  { intros hf s t r r' h. destruct (function_shape node hf) as (name & e). rewrite !e.
    pose proof (own_scope _ parent [] (fr_inner _ fuel file node parent (fr_enter_function file name) IH) s) as k.
    destruct ((edo inner (enter_function file name) fuel file node parent in edo pop_scope in set_container parent) (scoped ([] :: r_scopes s) s)) as [[] s'| |].
    - destruct k as [k1 k2]. exists t. split; [congruence|]. apply (k2 (t :: r')).
    - apply (k (t :: r')).
    - apply (k (t :: r')). }
  pose proof (fr_before file node) as hb. pose proof (fr_after node parent) as ha.
  destruct node; try (apply named; exact I); try (apply plain; [exact hb|exact ha]).
  clear plain named hb ha.
  match goal with |- framed (n_traverse _ _ ?n _) => set (me := n) end.
  intros s t r r' h. rewrite !traverse_shape. unfold me. cbn [n_before n_after]. fold (enter_arrow token). fold me.
  assert (e : forall s tp r, r_scopes s = tp :: r -> 
    (edo inner (edo clone_scope in enter_arrow token) fuel file me parent in edo pop_scope in set_container parent) s
    = (edo inner (enter_arrow token) fuel file me parent in edo pop_scope in set_container parent)
        (scoped (tp :: r_scopes s) s)).
  { clear. intros s tp r h. unfold ebind at 1. rewrite (inner_bind clone_scope _ _ _ _ _ _ (scoped (tp :: r_scopes s) s)).
    - reflexivity.
    - unfold clone_scope, ebind, eget, set_scopes, emod, scoped. rewrite h. reflexivity. }
  rewrite (e _ _ _ h), (e (scoped (t :: r') s) t r' eq_refl).
  pose proof (own_scope _ parent t (fr_inner _ fuel file me parent (fr_enter_arrow token) IH) s) as k.
  destruct ((edo inner (enter_arrow token) fuel file me parent in edo pop_scope in set_container parent) (scoped (t :: r_scopes s) s)) as [[] s'| |].
  - destruct k as [k1 k2]. exists t. split; [congruence|]. apply (k2 (t :: r')).
  - apply (k (t :: r')).
  - apply (k (t :: r')).
Qed.

(** * C31 *)

(** C31: analysing any syntax tree leaves the stack of scopes as it was, apart
    from the variables added to the innermost one. *)
Theorem C31_balanced : forall fuel file node parent s s' innermost outer,
  n_traverse fuel file node parent s = Done tt s' -> r_scopes s = innermost :: outer ->
  exists innermost', r_scopes s' = innermost' :: outer.
Proof.
  intros fuel file node parent s s' t r e h. pose proof (fr_traverse fuel file node parent s t r r h) as k.
  rewrite e in k. destruct k as (t' & k & _). eauto.
Qed.

(** Behind a named function or a method the stack is the same: nothing that the
    body declares is visible outside. *)
Theorem C31_function_balanced : forall fuel file node parent s s', function_node node ->
  n_traverse fuel file node parent s = Done tt s' -> r_scopes s' = r_scopes s.
Proof.
  intros [|fuel] file node parent s s' hf e; [discriminate|].
  destruct (function_shape node hf) as (name & k). rewrite k in e.
  pose proof (own_scope _ parent [] (fr_inner _ fuel file node parent (fr_enter_function file name) (fr_traverse fuel)) s) as o.
  rewrite e in o. apply o.
Qed.

(** The analysis of a named function or of a method does not depend on the
    variables around it: with other local scopes it gives the same answers,
    references, symbols and notifications. *)
Theorem C31_isolated_partial : forall fuel file node parent s s' scopes, function_node node ->
  n_traverse fuel file node parent s = Done tt s' ->
  n_traverse fuel file node parent (scoped scopes s) = Done tt (scoped scopes s').
Proof.
  intros [|fuel] file node parent s s' sc hf e; [discriminate|].
  destruct (function_shape node hf) as (name & k). rewrite k in *. cbn [r_scopes scoped].
  pose proof (own_scope _ parent [] (fr_inner _ fuel file node parent (fr_enter_function file name) (fr_traverse fuel)) s) as o.
  rewrite e in o. destruct o as [_ o]. apply (o sc).
Qed.
End Frames.

(** * Cases *)

Definition text31 : string := "<?php function f() { $x = 1; } function g($x) { return $x; }".
Definition node31 : Node :=
  match syntax 60 (lit text31) with Some (_ :: n :: _) => n | _ => NMissing (token_new TEof 0 0 0) end.
Definition state31 : rst :=
  let s := opened "<?php" text31 in
  scoped [[(lit "x", 5)]; [(lit "y", 5)]] (resolver_new (b_arena s) (b_global s) 1).

(** The function [g], analysed while another variable [$x] is in scope: the
    stack is not empty, the parameter is referenced twice. *)
Example C31_case : function_node node31 /\
  exists s', n_traverse 60 1 node31 1 state31 = Done tt s' /\
    opt_map (map snd) (find N.eqb 1 (r_refs s')) = Some [3; 4; 4].
Proof.
  split; [vm_compute; exact I|]. eexists. split; vm_compute; reflexivity.
Qed.

(** Two places of an open file were found to mean the same symbol. *)
Definition same_target (s : bst) (path : str) (r1 r2 : NodeRange) : Prop :=
  exists m i rs, findS path (b_refs s) = Some m /\ In (i, rs) m /\ In r1 rs /\ In r2 rs.

(** C31 does not hold for closures, which get no scope: the variable [$x] of the
    closure is taken for the one used after it. *)
Theorem C31_closure_refuted : exists s,
  s = opened "<?php" "<?php $f = function () { $x = 1; }; echo $x;" /\ reachable s /\
  same_target s pB (mkRange 25 0 27 0) (mkRange 41 0 43 0).
Proof.
  eexists. split; [reflexivity|]. split; [apply state_after_reachable|].
  eexists. eexists. eexists. split; [vm_compute; reflexivity|]. split; [left; reflexivity|].
  split; [left; reflexivity|right; right; left; reflexivity].
Qed.

(** Nor for two functions with the same name, as in PHP programs that declare a
    function under a condition: the variable [$x] of the first body is taken
    for the parameter of the second. *)
Theorem C31_refuted : exists s,
  s = opened "<?php" "<?php if (1) { function f() { $x = 1; } } else { function f($x) { return $x; } }" /\
  reachable s /\
  same_target s pB (mkRange 30 0 32 0) (mkRange 60 0 62 0) /\
  same_target s pB (mkRange 30 0 32 0) (mkRange 73 0 75 0).
Proof.
  eexists. split; [reflexivity|]. split; [apply state_after_reachable|].
  split; eexists; eexists; eexists; (split; [vm_compute; reflexivity|]);
    (split; [right; left; reflexivity|]); (split; [left; reflexivity|]).
  - right. left. reflexivity.
  - right. right. left. reflexivity.
Qed.

Print Assumptions C31_balanced.
Print Assumptions C31_function_balanced.
Print Assumptions C31_isolated_partial.
Print Assumptions C31_closure_refuted.
Print Assumptions C31_refuted.
