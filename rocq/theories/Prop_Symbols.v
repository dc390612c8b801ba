(** Properties of lookups in the tree of symbols: C19, C20, C36. *)

From Verif Require Import Base Token Scanner Node DocBlock Parser Assoc AssocFacts Arena ArenaFacts
  Symbol EnvMonad EnvFacts Workspace Resolver Backend SpecServer.

(** * C19: the position test is the closed interval test *)

Theorem C19_position_test : forall p r, in_range p r = true <-> inside p r.
Proof.
  intros [pl pc] [[sl sc] [el ec]]. unfold in_range, inside, not_after. simpl.
  destruct (N.ltb_spec el pl), (N.ltb_spec pl sl), (N.ltb_spec sl pl), (N.ltb_spec pl el),
    (N.eqb_spec pl sl), (N.ltb_spec pc sc), (N.eqb_spec pl el), (N.ltb_spec ec pc); simpl;
    split; intros hyp; try discriminate; try reflexivity; try lia; exfalso; lia.
Qed.

(** A position on the first line of a range of three lines; one before it *)
Example C19_case : inside (mkPos 2 9) (mkRng (mkPos 2 4) (mkPos 4 1)) /\
  ~ inside (mkPos 2 3) (mkRng (mkPos 2 4) (mkPos 4 1)).
Proof. split; rewrite <- C19_position_test; [reflexivity | discriminate]. Qed.

Print Assumptions C19_position_test.

(** * C20: the symbol at a position is the innermost one *)

Definition go_at (fuel : nat) (a : arena Symbol) (p : Position) (me : N) :=
  fix go (l : list N) : option N :=
    match l with
    | [] => Some me
    | c :: r =>
        match data a c with
        | None => None
        | Some s =>
            if kind_eqb (y_kind s) KNamespace || kind_eqb (y_kind s) KMagicConst then go r
            else if in_range p (y_range s) then symbol_at_f fuel a p c
            else go r
        end
    end.

Definition skipped (d : Symbol) : Prop := y_kind d = KNamespace \/ y_kind d = KMagicConst.

Lemma skipped_spec : forall d,
  kind_eqb (y_kind d) KNamespace || kind_eqb (y_kind d) KMagicConst = true <-> skipped d.
Proof.
  intros d. unfold skipped. destruct (y_kind d); simpl; split; intros h; try discriminate; auto;
  destruct h; discriminate.
Qed.

Lemma within_Up : forall a i f, live a i -> Up a i f -> wf a -> within a i f.
Proof.
  intros a i f l u w. induction u as [i|i n p t e ep u IH].
  - constructor. destruct l as [n e]. unfold alive, data. rewrite e. discriminate.
  - econstructor; [unfold parent_of; rewrite e; simpl; rewrite ep; reflexivity|].
    apply IH. destruct (wf_up _ w _ _ _ e ep) as (m & em & _). exists m. auto.
Qed.

Lemma Up_within : forall a i f, within a i f -> live a i /\ Up a i f.
Proof.
  intros a i f w. induction w as [i h|i p f e _ [_ IH]].
  - split; [|constructor]. unfold alive, data in h. destruct (node_of a i) as [n|] eqn:en; [|now elim h].
    exists n. auto.
  - unfold parent_of in e. destruct (node_of a i) as [n|] eqn:en; [|discriminate]. simpl in e.
    injection e as e. split; [exists n; auto|]. econstructor; eauto.
Qed.

Section At.
Variables (a : arena Symbol) (p : Position).
Hypothesis W : wf a.

(** What the answer [i] to the question below [me] has to satisfy *)
Definition innermost (me i : N) : Prop :=
  within a i me /\
  (i = me \/ exists d, data a i = Some d /\ inside p (y_range d)) /\
  (forall c d, parent_of a c = Some (Some i) -> data a c = Some d -> ~ skipped d ->
     ~ inside p (y_range d)).

Lemma symbol_at_spec : forall fuel me l, below fuel a me = Some l ->
  exists i, symbol_at_f fuel a p me = Some i /\ innermost me i.
Proof.
  induction fuel as [|fuel IH]; intros me l e; [discriminate|].
  rewrite below_S in e. destruct (node_of a me) as [n|] eqn:en; [|discriminate].
  destruct (below_list fuel a (n_kids n)) as [lk|] eqn:ek; [|discriminate].
  assert (b : forall c, In c (n_kids n) -> exists lc, below fuel a c = Some lc)
    by (intros c i; eapply below_list_in; eauto).
  change (symbol_at_f (S fuel) a p me) with
    (match kids a me with None => None | Some l => go_at fuel a p me l end).
  unfold kids. rewrite en. cbn [opt_map].
  assert (k : forall done todo, n_kids n = done ++ todo ->
    (forall c d, In c done -> data a c = Some d -> ~ skipped d -> ~ inside p (y_range d)) ->
    exists i, go_at fuel a p me todo = Some i /\ innermost me i).
  { intros done todo. revert done. induction todo as [|c todo IHt]; intros done eq h.
    - exists me. split; auto. split; [|split]; auto.
      + apply within_Up; auto; [exists n; auto|constructor].
      + intros c d ec ed sk. apply h with c; auto. rewrite app_nil_r in eq. rewrite <- eq.
        unfold parent_of in ec. destruct (node_of a c) as [m|] eqn:em; [|discriminate].
        simpl in ec. injection ec as ec. destruct (wf_up _ W _ _ _ em ec) as (n' & e' & i).
        assert (n' = n) by congruence. subst. auto.
    - assert (ic : In c (n_kids n)) by (rewrite eq, in_app_iff; simpl; auto).
      destruct (wf_down _ W _ _ _ en ic) as (m & em & epm). cbn [go_at].
      unfold data at 1. rewrite em. cbn [opt_map].
      assert (next : ~ (~ skipped (n_data m) /\ inside p (y_range (n_data m))) ->
        exists i, go_at fuel a p me todo = Some i /\ innermost me i).
      { intros no. apply (IHt (done ++ [c])); [rewrite <- app_assoc; auto|].
        intros c' d i ed sk ins. apply in_app_or in i as [i|[<-|[]]]; [apply (h c' d); auto|].
        unfold data in ed. rewrite em in ed. injection ed as <-. auto. }
      destruct (kind_eqb _ _ || kind_eqb _ _) eqn:es.
      { apply skipped_spec in es. apply next. intros [h1 _]. auto. }
      destruct (in_range p (y_range (n_data m))) eqn:er.
      + destruct (b c ic) as (lc & ec). destruct (IH _ _ ec) as (i & e1 & (h1 & h2 & h3)).
        exists i. split; auto. apply C19_position_test in er.
        split; [|split]; auto.
        * apply Up_within in h1 as [q1 q2]. apply within_Up; auto.
          eapply Up_trans; [exact q2|]. eapply Up_one; eauto.
        * right. destruct h2 as [->|h2]; auto. exists (n_data m). split; auto.
          unfold data. rewrite em. auto.
      + apply next. intros [_ h1]. apply C19_position_test in h1. congruence. }
  apply (k [] (n_kids n)); auto.
Qed.

End At.

(** The lookup always has an answer.  What is missing for the full statement:
    namespaces and the constant [::class] are never answered, even if the
    position is inside of their range, so such a child of the answer may
    contain the position. *)
Theorem C20_innermost_partial : forall a p f, wf a -> alive a f ->
  exists i, symbol_at a p f = Some i /\
    within a i f /\
    (i = f \/ exists d, data a i = Some d /\ inside p (y_range d)) /\
    (forall c d, parent_of a c = Some (Some i) -> data a c = Some d ->
       y_kind d <> KNamespace -> y_kind d <> KMagicConst -> ~ inside p (y_range d)).
Proof.
  intros a p f w h. assert (l : live a f).
  { unfold alive, data in h. destruct (node_of a f) as [n|] eqn:e; [exists n; auto|now elim h]. }
  destruct (descendants_total _ _ w l) as (ds & e).
  destruct (symbol_at_spec a p w _ _ _ e) as (i & e1 & h1 & h2 & h3).
  exists i. split; auto. split; auto. split; auto.
  intros c d ep ed k1 k2. apply (h3 c d); auto. intros [q|q]; auto.
Qed.

Section Examples.
Local Existing Instance ascii_runtime.
Local Existing Instance plain_hashing.
Local Open Scope string_scope.
Local Open Scope N_scope.
Local Open Scope list_scope.

Definition one_file (src : string) : B unit :=
  index_path 200 (fun _ => Some (lit src)) (lit "a.php").
Definition arena_of (o : out bst unit) : arena Symbol :=
  match o with Done _ s => b_arena s | _ => empty_arena end.

(** The full statement is false for a file with a namespace: at the name of
    the namespace the answer is the file, although the range of its child, the
    namespace, contains the position. *)
Theorem C20_refuted : exists s, reachable s /\ exists f p i c d,
  find str_eqb (lit "a.php") (b_files s) = Some f /\
  symbol_at (b_arena s) p f = Some i /\
  parent_of (b_arena s) c = Some (Some i) /\ data (b_arena s) c = Some d /\ inside p (y_range d).
Proof.
  exists (state_after [(fun _ => Some (lit "<?php namespace A; class B {}"), EvIndex [lit "a.php"])]).
  split; [apply state_after_reachable|]. exists 0, (mkPos 0 16), 0, 1. eexists.
  split; [vm_compute; reflexivity|]. split; [vm_compute; reflexivity|].
  split; [vm_compute; reflexivity|]. split; [vm_compute; reflexivity|].
  apply C19_position_test. reflexivity.
Qed.

(** A tree with a class, a method and its parameter *)
Example C20_case :
  let a := arena_of (one_file "<?php class A { function m($p) { } }" backend_new) in
  symbol_at a (mkPos 0 30) 0 = Some 3 /\ opt_map y_kind (data a 3) = Some KMethod /\
  symbol_at a (mkPos 0 28) 0 = Some 4 /\ opt_map y_kind (data a 4) = Some KFunctionParameter.
Proof. vm_compute. auto. Qed.

End Examples.

Print Assumptions C20_innermost_partial.
Print Assumptions C20_refuted.

(** * C36: the workspace symbol search *)

Lemma starts_with_spec : forall q s, starts_with q s = true <-> exists r, s = q ++ r.
Proof.
  induction q as [|c q IH]; intros [|d s]; simpl; split; intros h; try discriminate; eauto.
  - destruct h as [r h]. discriminate.
  - apply andb_prop in h as [h1 h2]. apply N.eqb_eq in h1. subst. apply IH in h2 as [r ->]. eauto.
  - destruct h as [r h]. injection h as <- ->. rewrite N.eqb_refl. simpl. apply IH. eauto.
Qed.

Section Search.
Context `{Runtime} `{Hashing}.

Definition hit (query : str) (d : Symbol) (path : str) : list (str * N * str * Range) :=
  if starts_with query (normalized_name d) then
    match lsp_kind (y_kind d) with
    | Some k => [(sym_name d, k, path, y_range d)]
    | None => []
    end
  else [].

Lemma query_file : forall q path ds s acc, (forall i, In i ds -> alive (b_arena s) i) ->
  efold (fun acc i =>
    elet d <- e_data i in
    eret (if starts_with q (normalized_name d) then
            match lsp_kind (y_kind d) with
            | Some k => acc ++ [(sym_name d, k, path, y_range d)]
            | None => acc
            end
          else acc)) acc ds s
  = Done (acc ++ flat_map (fun i => match data (b_arena s) i with
                                    | Some d => hit q d path
                                    | None => []
                                    end) ds) s.
Proof.
  induction ds as [|i ds IH]; intros s acc al; cbn [efold flat_map].
  - rewrite app_nil_r. reflexivity.
  - unfold ebind at 1 2. unfold e_data at 1. cbn [the_arena bst_arena].
    destruct (data (b_arena s) i) as [d|] eqn:e; [|elim (al i); simpl; auto].
    unfold eret at 1. rewrite IH by (intros; apply al; simpl; auto). f_equal. unfold hit.
    destruct (starts_with q (normalized_name d)); auto.
    destruct (lsp_kind (y_kind d)); auto. rewrite <- app_assoc. auto.
Qed.

Lemma query_files : forall q s files acc,
  wf (b_arena s) -> (forall p f, In (p, f) files -> alive (b_arena s) f) ->
  exists l, efold (fun acc (f : str * N) =>
    elet ds <- eopt (descendants (b_arena s) (snd f)) in
    efold (fun acc i =>
      elet d <- e_data i in
      eret (if starts_with q (normalized_name d) then
              match lsp_kind (y_kind d) with
              | Some k => acc ++ [(sym_name d, k, fst f, y_range d)]
              | None => acc
              end
            else acc)) acc ds) acc files s = Done (acc ++ l) s /\
  forall x, In x l <-> exists p f i d, In (p, f) files /\ Up (b_arena s) i f /\
    data (b_arena s) i = Some d /\ In x (hit q d p).
Proof.
  intros q s files. induction files as [|[p f] files IH]; intros acc w al; cbn [efold].
  - exists []. rewrite app_nil_r. split; [reflexivity|]. intros x. split; [intros []|].
    intros (? & ? & ? & ? & [] & _).
  - assert (lf : live (b_arena s) f).
    { specialize (al p f (or_introl eq_refl)). unfold alive, data in al.
      destruct (node_of (b_arena s) f) as [n|] eqn:e; [exists n; auto|now elim al]. }
    destruct (descendants_total _ _ w lf) as (ds & ed). unfold ebind at 1 2. cbn [snd fst].
    rewrite ed. cbn [eopt]. unfold eret at 1.
    assert (ald : forall i, In i ds -> alive (b_arena s) i).
    { intros i hi. apply (descendants_spec _ _ _ w ed) in hi.
      inversion hi; subst; unfold alive, data.
      - destruct lf as [n e]. rewrite e. discriminate.
      - match goal with h : node_of _ i = Some _ |- _ => rewrite h end. discriminate. }
    rewrite (query_file q p ds s acc ald).
    destruct (IH (acc ++ flat_map (fun i => match data (b_arena s) i with
                                    | Some d => hit q d p
                                    | None => []
                                    end) ds)) as (l & e & sp);
      [auto | intros p' f' i; apply (al p' f'); right; auto |].
    eexists. split; [rewrite e, <- app_assoc; reflexivity|].
    intros x. rewrite in_app_iff, sp, in_flat_map. split.
    + intros [(i & hi & hx)|(p' & f' & i & d & h1 & h2)].
      * apply (descendants_spec _ _ _ w ed) in hi. destruct (data (b_arena s) i) as [d|] eqn:e1; [|elim hx].
        exists p, f, i, d. simpl. auto.
      * exists p', f', i, d. simpl. tauto.
    + intros (p' & f' & i & d & [h|h] & h2 & h3 & h4).
      * injection h as <- <-. left. exists i. rewrite h3. split; auto.
        apply (descendants_spec _ _ _ w ed). auto.
      * right. exists p', f', i, d. auto.
Qed.

(** The answer to a query other than the empty one lists exactly the symbols
    of the indexed files whose name starts with the query, ignoring case.
    What is missing for the full statement: symbols without a kind in the
    protocol (parameters of functions, the constant [::class]) are left out,
    and an empty query has no answer. *)
Theorem C36_search_partial : forall s query,
  wf (b_arena s) -> NoDup (keys (b_files s)) ->
  (forall p f, find str_eqb p (b_files s) = Some f -> alive (b_arena s) f) ->
  query <> [] ->
  exists l, symbol_query query s = Done (Some l) s /\
  forall name kind path range, In (name, kind, path, range) l <->
    exists f i d, find str_eqb path (b_files s) = Some f /\ within (b_arena s) i f /\
      data (b_arena s) i = Some d /\
      (exists rest, to_lowercase name = to_lowercase query ++ rest) /\
      name = sym_name d /\ range = y_range d /\ lsp_kind (y_kind d) = Some kind.
Proof.
  intros s query w nd al ne. unfold symbol_query. destruct query as [|c query]; [now elim ne|].
  set (q := c :: query) in *. unfold ebind, eget.
  destruct (query_files (to_lowercase q) s (h_order (b_files s)) [] w) as (l & e & sp).
  { intros p f i. apply (al p). apply in_find; auto; [apply str_eqb_spec|].
    eapply Permutation.Permutation_in; [apply h_perm|exact i]. }
  unfold ebind in e. rewrite e. exists l. split; [reflexivity|].
  intros name kind path range. rewrite sp. split.
  - intros (p & f & i & d & h1 & h2 & h3 & h4). unfold hit in h4.
    destruct (starts_with (to_lowercase q) (normalized_name d)) eqn:es; [|elim h4].
    destruct (lsp_kind (y_kind d)) as [k|] eqn:ek; [|elim h4].
    destruct h4 as [h4|[]]. injection h4 as <- <- <- <-.
    exists f, i, d. split; [|split; [|split; [|split; [|auto]]]]; auto.
    + apply in_find; auto; [apply str_eqb_spec|].
      eapply Permutation.Permutation_in; [apply h_perm|exact h1].
    + apply within_Up; auto. unfold data in h3. destruct (node_of (b_arena s) i) as [n|] eqn:en; [|discriminate].
      exists n. auto.
    + apply starts_with_spec in es. auto.
  - intros (f & i & d & h1 & h2 & h3 & h4 & h5 & h6 & h7). exists path, f, i, d.
    split; [|split; [|split]]; auto.
    + eapply Permutation.Permutation_in; [apply Permutation.Permutation_sym, h_perm|].
      apply find_in in h1; auto. apply str_eqb_spec.
    + apply Up_within in h2. tauto.
    + unfold hit. subst name range. apply starts_with_spec in h4. unfold normalized_name.
      rewrite h4, h7. simpl. auto.
Qed.

End Search.

(** Two classes and a variable; the query finds one class and the variable. *)
Example C36_case :
  let s := @state_after ascii_runtime plain_hashing
    [(fun _ => Some (lit "<?php class FooA {} class Bar { } $foob = 1;"), EvIndex [lit "a.php"]);
     (fun _ => Some (lit "<?php class FooA {} class Bar { } $foob = 1;"), EvOpen (lit "a.php") [])] in
  match @symbol_query ascii_runtime plain_hashing (lit "fOO") s with
  | Done (Some l) _ => map (fun x => fst (fst (fst x))) l = [lit "FooA"; lit "foob"]
  | _ => False
  end.
Proof. vm_compute. reflexivity. Qed.

Print Assumptions C36_search_partial.
