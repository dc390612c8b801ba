(** Property C59: completion offers the names that fit, all of them and no
    others; and C42 for a position in a file. *)

From Coq Require Import Permutation Relations.
From Verif Require Import Base Token TokenFacts Scanner Node DocBlock Parser Assoc AssocFacts Arena ArenaFacts
  Symbol EnvMonad EnvFacts Workspace WorkspaceFacts Resolver SpecNames ResolverFacts
  Backend BackendFacts SpecServer ServerInv Prop_Server Prop_Names Prop_Members
  Prop_Overrides Suggester Prop_Suggest Prop_Insert Prop_Offered.
From Verif Require Prop_Symbols.

Local Notation findS := (find str_eqb).
Local Existing Instance ascii_runtime | 9.
Local Existing Instance plain_hashing | 9.
Local Open Scope string_scope.
Local Open Scope N_scope.
Local Open Scope list_scope.

(** * Specification *)

(** The position is in the range of the node, or not. *)
Definition covers (p : Position) (n : Node) : Prop := exists r, node_range n = Some r /\ inside p (get_range r).
Definition misses (p : Position) (n : Node) : Prop := exists r, node_range n = Some r /\ ~ inside p (get_range r).

(** [path_to p n path m]: the innermost node at [p] is [m]; [path] leads from
    [n] to [m], always to the first child that the position is in. *)
Inductive path_to (p : Position) : Node -> list Node -> Node -> Prop :=
| path_here : forall n, Forall (misses p) (children n) -> covers p n -> path_to p n [n] n
| path_down : forall n l1 c l2 path m, children n = l1 ++ c :: l2 -> Forall (misses p) l1 -> covers p c ->
    path_to p c path m -> path_to p n (n :: path) m.
(** A statement before the position, or behind it *)
Definition beside (p : Position) (n : Node) : Prop := misses p n /\ Forall (misses p) (children n).

(** The node of the file at the position, with the nodes around it, and no node *)
Definition at_cursor (ast : list Node) (p : Position) (around : list Node) (m : Node) : Prop :=
  exists l1 n l2, ast = l1 ++ n :: l2 /\ Forall (beside p) l1 /\ path_to p n (around ++ [m]) m.
Definition nothing_at (ast : list Node) (p : Position) : Prop := Forall (beside p) ast.

Definition is_class (n : Node) : Prop := match n with NClassStatement _ _ _ _ _ _ _ _ _ => True | _ => False end.
Definition is_block (n : Node) : Prop := match n with NBlock _ _ _ => True | _ => False end.
(** Between the members of a class: there is no other block between the class
    and the place. *)
Definition directly_in_class (around : list Node) : Prop :=
  exists l1 n l2, around = l1 ++ n :: l2 /\ Forall (fun m => ~ is_class m /\ ~ is_block m) l2 /\
    (is_class n \/ (is_block n /\ exists l0 c, l1 = l0 ++ [c] /\ is_class c)).

(** Neither a variable, nor a name behind an arrow or in a [use] *)
Definition other (n : Node) : Prop :=
  match n with
  | NUseTrait _ | NGroupedUse _ _ _ _ _ | NUseDeclaration _ _ _ _ | NVariable _ | NAliasedVariable _ _
  | NMissing _ | NLiteral _ | NMember _ _ _ _ _ => False
  | _ => True
  end.
Definition is_variable (n : Node) : Prop := match n with NVariable _ | NAliasedVariable _ _ => True | _ => False end.
(** [use ..] of an import *)
Definition imports_name (n declaration : Node) : Prop :=
  match n with
  | NGroupedUse _ d _ _ _ | NUseDeclaration _ d _ _ => d = declaration
  | _ => False
  end.

Section Complete.
Context {RT : Runtime} {HH : Hashing}.

(** What is offered where a variable is written in [suc] *)
Definition variable_in (b : bst) (suc : N) (g : Suggestion) : Prop :=
  (exists i d, declared_in (b_arena b) suc i /\ data (b_arena b) i = Some d /\
     (y_kind d = KVariable \/ y_kind d = KFunctionParameter) /\ g = sug_node i SReference None) \/
  (exists c, innermost_class (b_arena b) suc c /\ g = sug_this c).

(** * Proofs *)

Lemma covers_true : forall p n r, covers p n -> node_range n = Some r -> in_range p (get_range r) = true.
Proof. intros p n r (r' & h & q) e. rewrite e in h. injection h as <-. apply Prop_Symbols.C19_position_test. exact q. Qed.
Lemma misses_false : forall p n r, misses p n -> node_range n = Some r -> in_range p (get_range r) = false.
Proof.
  intros p n r (r' & h & q) e. rewrite e in h. injection h as <-. destruct (in_range p (get_range r)) eqn:ei; [|reflexivity].
  apply Prop_Symbols.C19_position_test in ei. contradiction.
Qed.

Lemma r_find_skip : forall A C b (f : A -> B (option C)) l, (forall y, In y l -> reads b (f y) (fun o => o = None)) ->
  reads b (efind f l) (fun o => o = None).
Proof.
  intros A C b f l. induction l as [|y l IH]; intros h; cbn [efind]; [apply r_ret; reflexivity|].
  eapply r_bind; [apply h; left; reflexivity|]. cbv beta. intros o ->. apply IH. intros z hz. apply h. right. exact hz.
Qed.
Lemma r_find_at : forall A C b (f : A -> B (option C)) l1 y l2 (P : option C -> Prop), (forall z, In z l1 -> reads b (f z) (fun o => o = None)) ->
  reads b (f y) (fun o => o <> None /\ P o) -> reads b (efind f (l1 ++ y :: l2)) P.
Proof.
  intros A C b f l1 y l2 P. induction l1 as [|z l1 IH]; intros h hy; cbn [app efind].
  - eapply r_bind; [exact hy|]. cbv beta. intros [c|] [h1 h2]; [apply r_ret; exact h2|congruence].
  - eapply r_bind; [apply h; left; reflexivity|]. cbv beta. intros o ->. apply IH; [|exact hy]. intros z' hz. apply h. right. exact hz.
Qed.

Lemma r_path : forall p n path m, path_to p n path m -> forall fuel anc b,
  reads b (find_node fuel n p anc) (fun o => o = Some (m, anc ++ path)).
Proof.
  intros p n path m h. induction h as [n hm hc|n l1 c l2 path m hch hm hc hp IH]; intros fuel anc b;
    (destruct fuel as [|fuel]; [apply r_fuel|]); cbn [find_node]; cbv zeta.
  - eapply r_bind.
    { apply r_find_skip. intros y hy. eapply r_bind; [apply r_opt|]. cbv beta. intros r hr.
      rewrite Forall_forall in hm. rewrite (misses_false _ _ _ (hm y hy) hr). apply r_ret. reflexivity. }
    cbv beta. intros o ->. eapply r_bind; [apply r_opt|]. cbv beta. intros r hr. apply r_ret.
    rewrite (covers_true _ _ _ hc hr). reflexivity.
  - rewrite hch. eapply r_bind with (P := fun o => o = Some (Some (m, (anc ++ [n]) ++ path))).
    { apply r_find_at.
      - intros y hy. eapply r_bind; [apply r_opt|]. cbv beta. intros r hr.
        rewrite Forall_forall in hm. rewrite (misses_false _ _ _ (hm y hy) hr). apply r_ret. reflexivity.
      - eapply r_bind; [apply r_opt|]. cbv beta. intros r hr. rewrite (covers_true _ _ _ hc hr).
        eapply r_bind; [apply IH|]. cbv beta. intros o ->. apply r_ret. split; [discriminate|reflexivity]. }
    cbv beta. intros o ->. apply r_ret. rewrite <- app_assoc. reflexivity.
Qed.
Lemma r_beside : forall p n, beside p n -> forall fuel anc b, reads b (find_node fuel n p anc) (fun o => o = None).
Proof.
  intros p n [h hc] [|fuel] anc b; [apply r_fuel|]. cbn [find_node]; cbv zeta.
  eapply r_bind.
  { apply r_find_skip. intros y hy. eapply r_bind; [apply r_opt|]. cbv beta. intros r hr.
    rewrite Forall_forall in hc. rewrite (misses_false _ _ _ (hc y hy) hr). apply r_ret. reflexivity. }
  cbv beta. intros o ->. eapply r_bind; [apply r_opt|]. cbv beta. intros r hr. apply r_ret.
  rewrite (misses_false _ _ _ h hr). reflexivity.
Qed.
Lemma r_cursor : forall ast p around m fuel b, at_cursor ast p around m ->
  reads b (efind (fun n => find_node fuel n p []) ast) (fun o => o = Some (m, around ++ [m])).
Proof.
  intros ast p around m fuel b (l1 & n & l2 & -> & hb & hp). apply r_find_at.
  - intros z hz. rewrite Forall_forall in hb. apply r_beside. apply hb. exact hz.
  - eapply r_weak; [apply (r_path _ _ _ _ hp)|]. cbv beta. intros o ->. split; [discriminate|reflexivity].
Qed.
Lemma r_nothing : forall ast p fuel b, nothing_at ast p ->
  reads b (efind (fun n => find_node fuel n p []) ast) (fun o => o = None).
Proof.
  intros ast p fuel b h. apply r_find_skip. intros z hz. unfold nothing_at in h. rewrite Forall_forall in h. apply r_beside, h, hz.
Qed.

(** The other way round: whenever the search ends, this is what it ends with. *)
Lemma path_last : forall p n path m, path_to p n path m -> exists l, path = l ++ [m].
Proof.
  intros p n path m h. induction h as [n hm hc|n l1 c l2 path m hch hm hc hp [l ->]]; [exists []; reflexivity|]. exists (n :: l). reflexivity.
Qed.
Lemma r_find_spec : forall A C b (f : A -> B (option C)) (P : A -> C -> Prop) (Q : A -> Prop) l,
  (forall y, In y l -> reads b (f y) (fun o => match o with Some c => P y c | None => Q y end)) ->
  reads b (efind f l) (fun o => match o with
    | Some c => exists l1 y l2, l = l1 ++ y :: l2 /\ Forall Q l1 /\ P y c
    | None => Forall Q l end).
Proof.
  intros A C b f P Q l. induction l as [|y l IH]; intros h; cbn [efind]; [apply r_ret; constructor|].
  eapply r_bind; [apply h; left; reflexivity|]. cbv beta. intros [c|] hc; [apply r_ret; exists [], y, l; auto|].
  eapply r_weak; [apply IH; intros z hz; apply h; right; exact hz|]. cbv beta. intros [c|].
  - intros (l1 & z & l2 & -> & h1 & h2). exists (y :: l1), z, l2. auto.
  - auto.
Qed.
Lemma covered : forall p n r, node_range n = Some r -> if in_range p (get_range r) then covers p n else misses p n.
Proof.
  intros p n r h. destruct (in_range p (get_range r)) eqn:e.
  - exists r. split; [exact h|]. apply Prop_Symbols.C19_position_test. exact e.
  - exists r. split; [exact h|]. intros q. apply Prop_Symbols.C19_position_test in q. congruence.
Qed.
Lemma found_path : forall fuel n p anc b, reads b (find_node fuel n p anc) (fun o =>
  match o with
  | Some (m, l) => exists path, l = anc ++ path /\ path_to p n path m
  | None => beside p n
  end).
Proof.
  induction fuel as [|fuel IH]; intros n p anc b; [apply r_fuel|]. cbn [find_node]; cbv zeta.
  eapply r_bind.
  { apply (r_find_spec _ _ _ _ (fun c o => covers p c /\ match o with
      | Some (m, l) => exists path, l = (anc ++ [n]) ++ path /\ path_to p c path m
      | None => False end) (misses p)).
    intros y hy. eapply r_bind; [apply r_opt|]. cbv beta. intros r hr. pose proof (covered p y r hr) as q.
    destruct (in_range p (get_range r)); [|apply r_ret; exact q].
    eapply r_bind; [apply IH|]. cbv beta. intros o ho. apply r_ret. split; [exact q|]. destruct o as [[m l]|]; [exact ho|].
    destruct ho as [(r1 & h1 & h2) _]. destruct q as (r2 & h3 & h4). congruence. }
  cbv beta. intros [o|].
  - intros (l1 & c & l2 & hch & hm & hc & ho). apply r_ret. destruct o as [[m l]|]; [|destruct ho].
    destruct ho as (path & -> & hp). exists (n :: path). split; [rewrite <- app_assoc; reflexivity|]. eapply path_down; eassumption.
  - intros hm. eapply r_bind; [apply r_opt|]. cbv beta. intros r hr. apply r_ret. pose proof (covered p n r hr) as q.
    destruct (in_range p (get_range r)); [|split; assumption]. exists [n]. split; [reflexivity|]. apply path_here; assumption.
Qed.
Theorem C59_node_found : forall fuel ast p b o b', efind (fun n => find_node fuel n p []) ast b = Done o b' ->
  match o with
  | Some (m, l) => exists around, l = around ++ [m] /\ at_cursor ast p around m
  | None => nothing_at ast p
  end.
Proof.
  intros fuel ast p b o b' e.
  assert (G : reads b (efind (fun n => find_node fuel n p []) ast) (fun o => match o with
  | Some (m, l) => exists around, l = around ++ [m] /\ at_cursor ast p around m
  | None => nothing_at ast p
  end)); [|apply (G _ _ e)].
  eapply r_weak.
  { apply (r_find_spec _ _ _ _ (fun n (o : Node * list Node) => exists path, snd o = [] ++ path /\ path_to p n path (fst o)) (beside p)).
    intros y _. eapply r_weak; [apply found_path|]. cbv beta. intros [[m l]|] h; exact h. }
  cbv beta. intros [[m l]|]; [|auto]. intros (l1 & n & l2 & -> & h1 & path & h2 & h3). cbn [fst snd app] in *. subst l.
  destruct (path_last _ _ _ _ h3) as (around & ->). exists around. split; [reflexivity|]. exists l1, n, l2. auto.
Qed.

Lemma r_select : forall A b (f : list Suggestion -> A -> B (list Suggestion)) (P : A -> Suggestion -> Prop) l,
  (forall acc y, In y l -> reads b (f acc y) (fun acc' => forall g, In g acc' <-> In g acc \/ P y g)) ->
  reads b (efold f [] l) (fun l' => forall g, In g l' <-> exists y, In y l /\ P y g).
Proof.
  intros A b f P l h. apply (r_fold_seen _ _ _ _ (fun done l' => forall g, In g l' <-> exists y, In y done /\ P y g)).
  - intros g. split; [intros []|intros (y & [] & _)].
  - intros done acc y IH hy. eapply r_weak; [apply h; exact hy|]. cbv beta. intros acc' ha g. rewrite ha, IH. split.
    + intros [(z & h1 & h2)|hp]; [exists z; split; [apply in_or_app; auto|exact h2]|].
      exists y. split; [apply in_or_app; right; left; reflexivity|exact hp].
    + intros (z & h1 & h2). apply in_app_iff in h1 as [h1|[<-|[]]]; eauto.
Qed.

Lemma r_variables : forall b suc, reads b (suggest_variables suc) (fun l => forall g, In g l <-> variable_in b suc g).
Proof.
  intros b suc. unfold suggest_variables. eapply r_bind; [apply r_kids|]. cbv beta. intros cs hcs.
  eapply r_bind.
  { apply (r_select _ _ _ (fun i g => exists d, data (b_arena b) i = Some d /\
      (y_kind d = KVariable \/ y_kind d = KFunctionParameter) /\ g = sug_node i SReference None)).
    intros acc y _. eapply r_bind; [apply r_data|]. cbv beta. intros d hd. apply r_ret. intros g.
    destruct (kind_eqb (y_kind d) KVariable || kind_eqb (y_kind d) KFunctionParameter) eqn:ek.
    - rewrite in_app_iff. apply Bool.orb_true_iff in ek. split.
      + intros [h|[<-|[]]]; [auto|]. right. exists d. split; [exact hd|]. split; [|reflexivity].
        destruct ek as [ek|ek]; apply kind_eqb_eq in ek; auto.
      + intros [h|(d' & _ & _ & ->)]; [auto|]. right. left. reflexivity.
    - apply Bool.orb_false_iff in ek as [k1 k2]. split; [auto|]. intros [h|(d' & h1 & h2 & _)]; [exact h|].
      rewrite hd in h1. injection h1 as <-. destruct h2 as [q|q]; rewrite q in *; discriminate. }
  cbv beta. intros l hl. eapply r_bind; [apply r_ancestors|]. cbv beta. intros anc hanc.
  eapply r_bind with (P := fun o => forall c, o = Some c <-> innermost_class (b_arena b) suc c).
  { intros o b1 eo. destruct (r_class _ _ _ _ eo) as [-> hr]. split; [reflexivity|]. intros c. split.
    - intros ->. destruct (hr c eq_refl) as (l1 & l2 & d & -> & q). exists l1, l2, d. auto.
    - intros (l1 & l2 & dc & q1 & q2 & q3 & q4). rewrite hanc in q1. injection q1 as ->.
      destruct (r_innermost b _ l1 c l2 dc eq_refl q2 q3 q4 _ _ eo) as [_ r]. exact r. }
  intros cl hcl. apply r_ret. intros g. rewrite in_app_iff, hl. unfold variable_in. split.
  - intros [(i & h1 & d & h2 & h3 & h4)|h].
    + left. exists i, d. split; [exists cs; auto|auto].
    + right. destruct cl as [c|]; [|destruct h]. destruct h as [<-|[]]. exists c. split; [apply hcl; reflexivity|reflexivity].
  - intros [(i & d & (ks & h0 & h1) & h2 & h3 & h4)|(c & h1 & ->)].
    + left. exists i. rewrite hcs in h0. injection h0 as <-. split; [exact h1|]. exists d. auto.
    + right. apply hcl in h1. subst cl. left. reflexivity.
Qed.

Lemma starts_iff : forall w s, starts_with w s = true <-> exists r, s = w ++ r.
Proof. apply Prop_Symbols.starts_with_spec. Qed.
Lemma in_order : forall (g : list (str * N)) p, In p (h_order g) <-> In p g.
Proof. intros g p. split; apply Permutation_in; [apply h_perm|apply Permutation_sym, h_perm]. Qed.

Lemma r_imports : forall b declaration w, node_name declaration = Some w ->
  reads b (suggest_imports declaration) (fun l => forall g, In g l <->
    exists k i r rg, In (k, i) (b_global b) /\ k = to_lowercase w ++ r /\ node_range declaration = Some rg /\
      g = sug_node i SImport (Some rg)).
Proof.
  intros b declaration w hw. unfold suggest_imports. eapply r_bind; [apply r_opt|]. cbv beta. intros prefix hp.
  unfold node_normalized_name in hp. rewrite hw in hp. injection hp as <-. eapply r_bind; [apply r_get|]. cbv beta. intros g0 ->.
  eapply r_weak.
  { apply (r_select _ _ _ (fun e g => (exists r, fst e = to_lowercase w ++ r) /\ exists rg, node_range declaration = Some rg /\
      g = sug_node (snd e) SImport (Some rg))).
    intros acc y _. destruct (starts_with (to_lowercase w) (fst y)) eqn:es.
    - apply starts_iff in es. eapply r_bind; [apply r_opt|]. cbv beta. intros rg hr. apply r_ret. intros g. rewrite in_app_iff. split.
      + intros [h|[<-|[]]]; [auto|]. right. split; [exact es|]. eauto.
      + intros [h|(_ & rg' & h1 & ->)]; [auto|]. right. left. congruence.
    - apply r_ret. intros g. split; [auto|]. intros [h|(h & _)]; [exact h|]. apply starts_iff in h. congruence. }
  cbv beta. intros l hl g. rewrite hl. split.
  - intros ([k i] & h1 & (r & h2) & rg & h3 & h4). exists k, i, r, rg. split; [apply in_order; exact h1|]. auto.
  - intros (k & i & r & rg & h1 & h2 & h3 & h4). exists (k, i). split; [apply in_order; exact h1|]. cbn [fst snd]. eauto.
Qed.

Lemma r_symbols : forall b node w, node_name node = Some w ->
  reads b (suggest_symbols node) (fun l => forall g, In g l <->
    exists k i d r rg, In (k, i) (b_global b) /\ data (b_arena b) i = Some d /\ lower_name d = to_lowercase w ++ r /\
      node_range node = Some rg /\ g = sug_node i SUnknown (Some rg)).
Proof.
  intros b node w hw. unfold suggest_symbols. eapply r_bind; [apply r_opt|]. cbv beta. intros prefix hp.
  unfold node_normalized_name in hp. rewrite hw in hp. injection hp as <-. eapply r_bind; [apply r_get|]. cbv beta. intros g0 ->.
  eapply r_weak.
  { apply (r_select _ _ _ (fun e g => exists d, data (b_arena b) (snd e) = Some d /\ (exists r, lower_name d = to_lowercase w ++ r) /\
      exists rg, node_range node = Some rg /\ g = sug_node (snd e) SUnknown (Some rg))).
    intros acc y _. eapply r_bind; [apply r_data|]. cbv beta. intros d hd. destruct (starts_with (to_lowercase w) (normalized_name d)) eqn:es.
    - apply starts_iff in es. eapply r_bind; [apply r_opt|]. cbv beta. intros rg hr. apply r_ret. intros g. rewrite in_app_iff. split.
      + intros [h|[<-|[]]]; [auto|]. right. exists d. split; [exact hd|]. split; [exact es|]. eauto.
      + intros [h|(d' & _ & _ & rg' & h1 & ->)]; [auto|]. right. left. congruence.
    - apply r_ret. intros g. split; [auto|]. intros [h|(d' & h1 & h & _)]; [exact h|]. rewrite hd in h1. injection h1 as <-.
      apply starts_iff in h. unfold lower_name, normalized_name in *. congruence. }
  cbv beta. intros l hl g. rewrite hl. split.
  - intros ([k i] & h1 & d & h0 & (r & h2) & rg & h3 & h4). exists k, i, d, r, rg. split; [apply in_order; exact h1|]. auto.
  - intros (k & i & d & r & rg & h1 & h0 & h2 & h3 & h4). exists (k, i). split; [apply in_order; exact h1|]. cbn [snd]. eauto 8.
Qed.

Lemma class_block_spec : forall around, class_block (rev around) = true <-> directly_in_class around.
Proof.
  intros around. assert (X : exists l, around = rev l) by (exists (rev around); symmetry; apply rev_involutive).
  destruct X as (l & ->). rewrite rev_involutive. unfold directly_in_class.
  assert (E : class_block l = true <-> exists l2 n l1, l = l2 ++ n :: l1 /\ Forall (fun m => ~ is_class m /\ ~ is_block m) l2 /\
    (is_class n \/ (is_block n /\ exists c l0, l1 = c :: l0 /\ is_class c))).
  { induction l as [|n l IH]; [split; [discriminate|intros ([|] & ? & ? & h & _); discriminate h]|].
    assert (S : ~ is_class n /\ ~ is_block n ->
      (class_block l = true <-> exists l2 m l1, n :: l = l2 ++ m :: l1 /\ Forall (fun m => ~ is_class m /\ ~ is_block m) l2 /\
        (is_class m \/ (is_block m /\ exists c l0, l1 = c :: l0 /\ is_class c)))).
    { intros hn. rewrite IH. split.
      - intros (l2 & m & l1 & -> & h1 & h2). exists (n :: l2), m, l1. split; [reflexivity|]. split; [constructor; auto|exact h2].
      - intros ([|q l2] & m & l1 & h & h1 & h2).
        + cbn in h. injection h as <- <-. destruct hn as [a b]. destruct h2 as [h2|[h2 _]]; contradiction.
        + cbn in h. injection h as <- ->. inversion h1; subst. eauto 8. }
    destruct n; cbn [class_block]; try (apply S; split; intros []; fail).
    - split; [|reflexivity]. intros _. eexists [], _, l. split; [reflexivity|]. split; [constructor|]. left. exact I.
    - split.
      + intros h. eexists [], _, l. split; [reflexivity|]. split; [constructor|]. right. split; [exact I|].
        destruct l as [|c l]; [discriminate h|]. exists c, l. split; [reflexivity|]. destruct c; try discriminate h. exact I.
      + intros ([|q l2] & m & l1 & h & h1 & h2); cbn in h; injection h as e1 e2.
        * subst. destruct h2 as [[]|(_ & c & l0 & -> & hc)]. destruct c; try destruct hc. reflexivity.
        * subst. inversion h1 as [|? ? [_ hb] _]; subst. destruct hb. exact I. }
  rewrite E. split.
  - intros (l2 & n & l1 & -> & h1 & h2). exists (rev l1), n, (rev l2). split; [rewrite rev_app_distr; cbn; rewrite <- app_assoc; reflexivity|].
    split; [apply Forall_rev; exact h1|]. destruct h2 as [h2|(h2 & c & l0 & -> & h3)]; [auto|]. right. split; [exact h2|].
    exists (rev l0), c. split; [reflexivity|exact h3].
  - intros (l1 & n & l2 & h & h1 & h2). exists (rev l2), n, (rev l1).
    split; [apply (f_equal (@rev Node)) in h; rewrite rev_involutive, rev_app_distr in h; cbn in h; rewrite <- app_assoc in h; exact h|].
    split; [apply Forall_rev; exact h1|]. destruct h2 as [h2|(h2 & l0 & c & -> & h3)]; [auto|]. right. split; [exact h2|].
    exists c, (rev l0). rewrite rev_app_distr. split; [reflexivity|exact h3].
Qed.

(** Where a variable is written: the variables and parameters of the function
    around it, and [$this] in a class. *)
Theorem C59_variables : forall fuel order trigger p suc ast refs b l b' around node,
  get_suggestions_at fuel order trigger p suc ast refs b = Done l b' ->
  at_cursor ast p around node -> is_variable node -> forall g, In g l <-> variable_in b suc g.
Proof.
  intros fuel order trigger p suc ast refs b l b' around node e hc hv.
  assert (G : reads b (get_suggestions_at fuel order trigger p suc ast refs) (fun l => forall g, In g l <-> variable_in b suc g)).
  { unfold get_suggestions_at. eapply r_bind; [apply r_cursor; exact hc|]. cbv beta. intros o ->. cbv zeta.
    destruct node; try destruct hv; apply r_variables. }
  apply (G _ _ e).
Qed.
(** Behind a dollar sign: the same *)
Theorem C59_dollar : forall fuel order p suc ast refs b l b',
  get_suggestions_at fuel order (Some 36) p suc ast refs b = Done l b' ->
  nothing_at ast p -> forall g, In g l <-> variable_in b suc g.
Proof.
  intros fuel order p suc ast refs b l b' e hc.
  assert (G : reads b (get_suggestions_at fuel order (Some 36) p suc ast refs) (fun l => forall g, In g l <-> variable_in b suc g)).
  { unfold get_suggestions_at. eapply r_bind; [apply r_nothing; exact hc|]. cbv beta. intros o ->. apply r_variables. }
  apply (G _ _ e).
Qed.
(** Where nothing is written yet: at the top of a file the words that begin a
    declaration, and nothing elsewhere. *)
Theorem C59_keywords : forall fuel order trigger p suc ast refs b l b' d,
  get_suggestions_at fuel order trigger p suc ast refs b = Done l b' ->
  nothing_at ast p -> trigger <> Some 36 -> data (b_arena b) suc = Some d ->
  l = match y_kind d with
      | KFile => map sug_token [TNamespace; TUse; TClass; TFunction; TConst; TTrait; TInterface]
      | _ => []
      end.
Proof.
  intros fuel order trigger p suc ast refs b l b' d e hc ht hd.
  assert (G : reads b (get_suggestions_at fuel order trigger p suc ast refs) (fun l => l = match y_kind d with
      | KFile => map sug_token [TNamespace; TUse; TClass; TFunction; TConst; TTrait; TInterface]
      | _ => []
      end)).
  { unfold get_suggestions_at. eapply r_bind; [apply r_nothing; exact hc|]. cbv beta. intros o ->.
    replace (match trigger with Some c => c =? 36 | None => false end) with false.
    2:{ destruct trigger as [c|]; [|reflexivity]. destruct (N.eqb_spec c 36); [congruence|reflexivity]. }
    unfold suggest_keywords. eapply r_bind; [apply r_data|]. cbv beta. intros d' hd'. rewrite hd in hd'. injection hd' as <-. apply r_ret. reflexivity. }
  apply (G _ _ e).
Qed.
(** In an import: the symbols of which the name with its namespace starts with
    what is written, in any letter case. *)
Theorem C59_imports : forall fuel order trigger p suc ast refs b l b' around node declaration w,
  get_suggestions_at fuel order trigger p suc ast refs b = Done l b' ->
  at_cursor ast p around node -> imports_name node declaration -> node_name declaration = Some w ->
  forall g, In g l <-> exists k i r rg, In (k, i) (b_global b) /\ k = to_lowercase w ++ r /\
    node_range declaration = Some rg /\ g = sug_node i SImport (Some rg).
Proof.
  intros fuel order trigger p suc ast refs b l b' around node declaration w e hc hi hw.
  assert (G : reads b (get_suggestions_at fuel order trigger p suc ast refs) (fun l => forall g, In g l <->
    exists k i r rg, In (k, i) (b_global b) /\ k = to_lowercase w ++ r /\
    node_range declaration = Some rg /\ g = sug_node i SImport (Some rg))).
  { unfold get_suggestions_at. eapply r_bind; [apply r_cursor; exact hc|]. cbv beta. intros o ->. cbv zeta.
    destruct node; try destruct hi; apply r_imports; exact hw. }
  apply (G _ _ e).
Qed.
(** Where the name of a class or function is written: the symbols of the
    workspace of which the name starts with it, in any letter case. *)
Theorem C59_names : forall fuel order trigger p suc ast refs b l b' around node w,
  get_suggestions_at fuel order trigger p suc ast refs b = Done l b' ->
  at_cursor ast p around node -> other node -> ~ directly_in_class around -> node_name node = Some w ->
  forall g, In g l <-> exists k i d r rg, In (k, i) (b_global b) /\ data (b_arena b) i = Some d /\
    lower_name d = to_lowercase w ++ r /\ node_range node = Some rg /\ g = sug_node i SUnknown (Some rg).
Proof.
  intros fuel order trigger p suc ast refs b l b' around node w e hc ho hd hw.
  assert (G : reads b (get_suggestions_at fuel order trigger p suc ast refs) (fun l => forall g, In g l <->
    exists k i d r rg, In (k, i) (b_global b) /\ data (b_arena b) i = Some d /\
    lower_name d = to_lowercase w ++ r /\ node_range node = Some rg /\ g = sug_node i SUnknown (Some rg))).
  { unfold get_suggestions_at. eapply r_bind; [apply r_cursor; exact hc|]. cbv beta. intros o ->. cbv zeta.
    rewrite removelast_last. assert (q : class_block (rev around) = false).
    { destruct (class_block (rev around)) eqn:q; [|reflexivity]. apply class_block_spec in q. contradiction. }
    rewrite q. destruct node; try destruct ho; apply r_symbols; exact hw. }
  apply (G _ _ e).
Qed.
(** Between the members of a class: the visibilities *)
Theorem C59_modifiers : forall fuel order trigger p suc ast refs b l b' around node,
  get_suggestions_at fuel order trigger p suc ast refs b = Done l b' ->
  at_cursor ast p around node -> other node -> directly_in_class around ->
  l = map sug_token [TPublic; TPrivate; TProtected].
Proof.
  intros fuel order trigger p suc ast refs b l b' around node e hc ho hd.
  assert (G : reads b (get_suggestions_at fuel order trigger p suc ast refs) (fun l => l = map sug_token [TPublic; TPrivate; TProtected])).
  { unfold get_suggestions_at. eapply r_bind; [apply r_cursor; exact hc|]. cbv beta. intros o ->. cbv zeta.
    rewrite removelast_last. apply class_block_spec in hd. rewrite hd. destruct node; try destruct ho; apply r_ret; reflexivity. }
  apply (G _ _ e).
Qed.
(** In a [use] of a class: the traits (C42_traits_partial) *)
Theorem C59_traits : forall fuel order trigger p suc ast refs b l b' around ty w,
  get_suggestions_at fuel order trigger p suc ast refs b = Done l b' ->
  at_cursor ast p around (NUseTrait ty) -> node_name ty = Some w ->
  forall i, (exists g, In g l /\ g_node g = Some i) <->
    (exists k d r, In (k, i) (b_global b) /\ data (b_arena b) i = Some d /\ y_kind d = KTrait /\ lower_name d = to_lowercase w ++ r).
Proof.
  intros fuel order trigger p suc ast refs b l b' around ty w e hc hw.
  assert (G : reads b (get_suggestions_at fuel order trigger p suc ast refs) (fun l =>
    forall i, (exists g, In g l /\ g_node g = Some i) <->
    (exists k d r, In (k, i) (b_global b) /\ data (b_arena b) i = Some d /\ y_kind d = KTrait /\ lower_name d = to_lowercase w ++ r))).
  { unfold get_suggestions_at. eapply r_bind; [apply r_cursor; exact hc|]. cbv beta. intros o ->. cbv zeta.
    intros l0 b0 e0. eapply C42_traits_partial; eassumption. }
  apply (G _ _ e).
Qed.

(** C42 at a position: behind an arrow the members of the class of the object
    are offered. *)
Theorem C42_position_partial : forall fuel order trigger p suc ast refs b l b' around node object op x m y w k c i d,
  get_suggestions_at fuel order trigger p suc ast refs b = Done l b' ->
  at_cursor ast p (around ++ [NMember object op x m y]) node ->
  (exists t, node = NLiteral t \/ node = NMissing t) -> node_name node = Some w ->
  stands_for (b_arena b) suc (order refs) (NMember object op x m y) object k -> has_class b suc k c ->
  own_member b suc c i d -> (exists r, sym_name d = w ++ r) -> y_kind d <> KMagicConst ->
  (trigger = Some 58 -> y_static d = true) -> (is_public d \/ innermost_class (b_arena b) suc c) ->
  In (sug_aliased i (sym_name d) SCall) l.
Proof.
  intros fuel order trigger p suc ast refs b l b' around node object op x m y w k c i d e hc hn hw h1 h2 h3 h4 h5 h6 h7.
  assert (G : reads b (get_suggestions_at fuel order trigger p suc ast refs) (fun l => In (sug_aliased i (sym_name d) SCall) l)).
  { unfold get_suggestions_at. eapply r_bind; [apply r_cursor; exact hc|]. cbv beta. intros o ->. cbv zeta.
    rewrite removelast_last.
    assert (M : reads b (elet parent <- eopt (last_opt (around ++ [NMember object op x m y])) in
      suggest_members fuel order trigger node parent suc refs) (fun l => In (sug_aliased i (sym_name d) SCall) l)).
    { eapply r_bind; [apply r_opt|]. cbv beta. intros parent hp. unfold last_opt in hp. rewrite rev_app_distr in hp. injection hp as <-.
      intros l0 b0 e0. split; [apply r_members in e0; apply e0|].
      eapply C42_offered_partial; try eassumption. destruct hn as (t & [->| ->]); intros []. }
    destruct hn as (t & [->| ->]); exact M. }
  apply (G _ _ e).
Qed.
End Complete.

(** * Cases *)

(** The request in the file [pB] of a state *)
Definition ask (b : bst) (p : Position) (trigger : option N) : option (list Suggestion) :=
  match findS pB (b_files b), findS pB (b_open b), findS pB (b_refs b) with
  | Some file, Some (ast, _), Some refs =>
      match symbol_at (b_arena b) p file with
      | Some suc => match get_suggestions_at 60 (fun l => l) trigger p suc ast refs b with Done l _ => Some l | _ => None end
      | None => None
      end
  | _, _, _ => None
  end.
Definition cursor (b : bst) (p : Position) : option (Node * list Node) :=
  match findS pB (b_open b) with
  | Some (ast, _) => match efind (fun n => find_node 60 n p []) ast b with Done o _ => o | _ => None end
  | None => None
  end.
Definition ast_of (b : bst) : list Node := match findS pB (b_open b) with Some (ast, _) => ast | None => [] end.
Lemma cursor_at : forall b p m l, cursor b p = Some (m, l) -> exists around, l = around ++ [m] /\ at_cursor (ast_of b) p around m.
Proof.
  intros b p m l h. unfold cursor, ast_of in *. destruct (findS pB (b_open b)) as [[ast rg]|]; [|discriminate h].
  destruct (efind _ ast b) as [o b'| |] eqn:e; try discriminate h. subst o. apply (C59_node_found _ _ _ _ _ _ e).
Qed.

(** A variable, the name of a class, a trait and a modifier at the cursor *)
Definition text59 : string :=
  "<?php use a as b; class Abc { use A; function f($p) { $x = 1; $x; Ab; } pu } $".
Definition case59 : bst := opened "<?php trait Ax { } class Ay { }" text59.
Definition node59 (c : N) : Node := match cursor case59 (mkPos 0 c) with Some (n, _) => n | None => NVariable (mkToken 0 0 TVariable None None) end.
Definition around59 (c : N) : list Node := match cursor case59 (mkPos 0 c) with Some (_, l) => removelast l | None => [] end.
Lemma at59 : forall c, cursor case59 (mkPos 0 c) <> None -> at_cursor (ast_of case59) (mkPos 0 c) (around59 c) (node59 c).
Proof.
  intros c h. unfold around59, node59. destruct (cursor case59 (mkPos 0 c)) as [[m l]|] eqn:e; [|congruence].
  destruct (cursor_at _ _ _ _ e) as (around & -> & q). rewrite removelast_last. exact q.
Qed.
Example C59_variables_case : is_variable (node59 63) /\ at_cursor (ast_of case59) (mkPos 0 63) (around59 63) (node59 63) /\
  ask case59 (mkPos 0 63) None = Some [sug_node 8 SReference None; sug_node 10 SReference None; sug_this 5].
Proof. split; [exact I|]. split; [apply at59; vm_compute; discriminate|vm_compute; reflexivity]. Qed.
Example C59_traits_case : (exists ty, node59 35 = NUseTrait ty /\ node_name ty = Some (lit "A")) /\
  at_cursor (ast_of case59) (mkPos 0 35) (around59 35) (node59 35) /\
  opt_map (map g_node) (ask case59 (mkPos 0 35) None) = Some [Some 1].
Proof. split; [eexists; split; vm_compute; reflexivity|]. split; [apply at59; vm_compute; discriminate|vm_compute; reflexivity]. Qed.
Example C59_names_case : other (node59 67) /\ ~ directly_in_class (around59 67) /\ node_name (node59 67) = Some (lit "Ab") /\
  at_cursor (ast_of case59) (mkPos 0 67) (around59 67) (node59 67) /\
  opt_map (map g_node) (ask case59 (mkPos 0 67) None) = Some [Some 5].
Proof.
  split; [exact I|]. split; [intros h; apply class_block_spec in h; vm_compute in h; discriminate h|]. split; [vm_compute; reflexivity|].
  split; [apply at59; vm_compute; discriminate|vm_compute; reflexivity].
Qed.
Example C59_modifiers_case : other (node59 73) /\ directly_in_class (around59 73) /\
  at_cursor (ast_of case59) (mkPos 0 73) (around59 73) (node59 73) /\
  ask case59 (mkPos 0 73) None = Some (map sug_token [TPublic; TPrivate; TProtected]).
Proof.
  split; [exact I|]. split; [apply class_block_spec; vm_compute; reflexivity|].
  split; [apply at59; vm_compute; discriminate|vm_compute; reflexivity].
Qed.
(** The import, with the cursor on the word [as] *)
Example C59_imports_case : (exists d, imports_name (node59 13) d /\ node_name d = Some (lit "a")) /\
  at_cursor (ast_of case59) (mkPos 0 13) (around59 13) (node59 13) /\
  opt_map (map g_node) (ask case59 (mkPos 0 13) None) = Some [Some 1; Some 2; Some 5].
Proof. split; [eexists; split; vm_compute; reflexivity|]. split; [apply at59; vm_compute; discriminate|vm_compute; reflexivity]. Qed.

(** Nothing at the cursor, behind a class *)
Definition case59n : bst := opened "<?php" "<?php $x = 1; class A { }  ".
Example C59_nothing_case : nothing_at (ast_of case59n) (mkPos 0 27) /\ (exists d, data (b_arena case59n) 1 = Some d /\ y_kind d = KFile) /\
  ask case59n (mkPos 0 27) None = Some (map sug_token [TNamespace; TUse; TClass; TFunction; TConst; TTrait; TInterface]) /\
  opt_map (map g_node) (ask case59n (mkPos 0 27) (Some 36)) = Some [Some 4].
Proof.
  split.
  { destruct (efind (fun n => find_node 60 n (mkPos 0 27) []) (ast_of case59n) case59n) as [o b'| |] eqn:e; try (vm_compute in e; discriminate e).
    pose proof (C59_node_found _ _ _ _ _ _ e) as h. destruct o as [[m l]|]; [vm_compute in e; discriminate e|exact h]. }
  split; [eexists; split; vm_compute; reflexivity|]. split; vm_compute; reflexivity.
Qed.

(** A member at the cursor: [$a->me()->x] of [case42f] *)
Example C42_position_case : exists around node object op x m y,
  at_cursor (ast_of case42f) (mkPos 0 117) (around ++ [NMember object op x m y]) node /\
  (exists t, node = NLiteral t \/ node = NMissing t) /\ node_name node = Some (lit "x") /\
  NMember object op x m y = member42f 0 /\
  ask case42f (mkPos 0 117) None = Some [sug_aliased 4 (lit "xy") SCall; sug_aliased 5 (lit "xz") SCall].
Proof.
  destruct (cursor case42f (mkPos 0 117)) as [[n l]|] eqn:e; [|vm_compute in e; discriminate e].
  destruct (cursor_at _ _ _ _ e) as (around & q & h). vm_compute in e. injection e as <- <-.
  match type of q with ?l = _ => change (removelast l ++ [last l (NVariable (mkToken 0 0 TVariable None None))] = around ++ [last l (NVariable (mkToken 0 0 TVariable None None))]) in q end.
  apply app_inv_tail in q. cbn [removelast] in q. subst around.
  match type of h with at_cursor _ _ ?l _ => change l with (removelast l ++ [last l (NVariable (mkToken 0 0 TVariable None None))]) in h end.
  cbn [last] in h. eexists _, _, _, _, _, _, _. split; [exact h|]. split; [eexists; left; reflexivity|]. split; [reflexivity|].
  split; [reflexivity|vm_compute; reflexivity].
Qed.

(** With the cursor on the name of an import, the bare names are compared, not
    the names with their namespace: nothing is offered for [use M\F]. *)
Theorem C59_import_refuted : exists b p k i, reachable b /\
  b = opened "<?php namespace M; class Foo { }" "<?php use M\F; " /\ In (k, i) (b_global b) /\
  k = to_lowercase (lit "M\F") ++ lit "oo" /\ ask b p None = Some [].
Proof.
  eexists. exists (mkPos 0 13). eexists _, _. split; [|split; [reflexivity|]]; [apply state_after_reachable|].
  split; [vm_compute; left; reflexivity|]. split; vm_compute; reflexivity.
Qed.

Print Assumptions C59_node_found.
Print Assumptions C59_variables.
Print Assumptions C59_dollar.
Print Assumptions C59_keywords.
Print Assumptions C59_imports.
Print Assumptions C59_names.
Print Assumptions C59_modifiers.
Print Assumptions C59_traits.
Print Assumptions C42_position_partial.
Print Assumptions C59_import_refuted.
