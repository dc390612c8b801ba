(** Property C41: what is highlighted. *)

From Coq Require Import Permutation.
From Verif Require Import Base Token Scanner Node DocBlock Parser Assoc AssocFacts Arena ArenaFacts
  Symbol EnvMonad EnvFacts Workspace WorkspaceFacts Resolver ResolverFacts
  Backend BackendFacts SpecServer ServerInv Prop_Server.

Local Notation findS := (find str_eqb).
Local Existing Instance ascii_runtime | 9.
Local Existing Instance plain_hashing | 9.
Local Open Scope string_scope.
Local Open Scope N_scope.
Local Open Scope list_scope.

(** * Specification *)

(** The file [path] has, as far as the server knows, an occurrence [r] of the
    symbol [i]. *)
Definition recorded (s : bst) (path : str) (i : N) (r : NodeRange) : Prop :=
  exists m rs, findS path (b_refs s) = Some m /\ In (i, rs) m /\ In r rs.

(** * The maps of references *)

Definition map_ok (m : FileReferenceMap) : Prop := NoDup (keys m).
Definition refs_ok (s : bst) : Prop := forall path m, findS path (b_refs s) = Some m -> map_ok m.

Lemma by_node_ok : forall l, map_ok (references_by_node l).
Proof.
  intros l. unfold references_by_node.
  assert (G : forall l m, map_ok m -> map_ok (fold_left (fun m p => upsert N.eqb (snd p) [] (fun rs : list NodeRange => rs ++ [fst p]) m) l m)).
  { clear l. induction l as [|p l IH]; intros m h; [exact h|]. cbn [fold_left]. apply IH. unfold upsert.
    apply nodup_put; [apply N.eqb_spec|exact h]. }
  apply G. constructor.
Qed.

Section Highlight.
Context {RT : Runtime} {HH : Hashing}.

(** [m] leaves the references alone, [keeps_ok] keeps the maps in order *)
Definition still {A} (m : B A) : Prop := forall s x s', m s = Done x s' -> b_refs s' = b_refs s.
Definition keeps_ok {A} (m : B A) : Prop := forall s x s', m s = Done x s' -> refs_ok s -> refs_ok s'.

Lemma still_keeps : forall A (m : B A), still m -> keeps_ok m.
Proof. intros A m h s x s' e k. unfold refs_ok. rewrite (h _ _ _ e). exact k. Qed.
Lemma keeps_bind : forall A C (m : B A) (k : A -> B C), keeps_ok m -> (forall x, keeps_ok (k x)) -> keeps_ok (ebind m k).
Proof. intros A C m k h1 h2 s x s' e r. apply ebind_done in e as (y & t & e1 & e2). eapply h2; [exact e2|]. eapply h1; eauto. Qed.
Lemma still_bind : forall A C (m : B A) (k : A -> B C), still m -> (forall x, still (k x)) -> still (ebind m k).
Proof. intros A C m k h1 h2 s x s' e. apply ebind_done in e as (y & t & e1 & e2). rewrite (h2 _ _ _ _ e2). eapply h1; eauto. Qed.
Lemma still_reads : forall A (m : B A), reads m -> still m.
Proof. intros A m h s x s' e. apply h in e. subst. reflexivity. Qed.
Lemma still_mod : forall f, (forall s, b_refs (f s) = b_refs s) -> still (emod f).
Proof. intros f h s x s' e. injection e as _ <-. apply h. Qed.
Lemma still_arena : forall f, still (on_arena f).
Proof. intros f s x s' e. unfold on_arena in e. cbn in e. destruct (f (b_arena s)) as [a|]; [|discriminate e]. injection e as _ <-. reflexivity. Qed.
Lemma keeps_iter : forall A (f : A -> B unit) l, (forall x, keeps_ok (f x)) -> keeps_ok (eiter f l).
Proof.
  intros A f l h. induction l as [|x l IH]; cbn [eiter]; [apply still_keeps, still_reads, reads_ret|]. apply keeps_bind; auto.
Qed.
Lemma keeps_fold : forall A C (f : A -> C -> B A) l x, (forall x y, keeps_ok (f x y)) -> keeps_ok (efold f x l).
Proof.
  intros A C f l x h. revert x. induction l as [|y l IH]; intros x; cbn [efold]; [apply still_keeps, still_reads, reads_ret|].
  apply keeps_bind; auto.
Qed.
Lemma still_visit : forall fuel nodes file, still (visit_symbols fuel nodes file).
Proof. intros fuel nodes file s x s' e. unfold visit_symbols in e. destruct (eiter _ _ _); try discriminate e. injection e as _ <-. reflexivity. Qed.
Lemma still_names : forall fuel nodes file, still (resolve_names fuel nodes file).
Proof. intros fuel nodes file s x s' e. unfold resolve_names in e. destruct (eiter _ _ _); try discriminate e. injection e as _ <-. reflexivity. Qed.
Lemma still_new : forall d, still (e_new (S := bst) d).
Proof. intros d s x s' e. unfold e_new in e. injection e as _ <-. reflexivity. Qed.

Lemma find_map_snd : forall (f : FileReferenceMap -> FileReferenceMap) p l,
  findS p (map (fun q => (fst q, f (snd q))) l) = opt_map f (findS p l).
Proof.
  intros f p. induction l as [|[k v] l IH]; [reflexivity|]. cbn [map fst snd find]. destruct (str_eqb p k); [reflexivity|exact IH].
Qed.

Lemma keeps_forget : forall l, keeps_ok (forget_references l).
Proof.
  intros l s x s' e k. unfold forget_references in e. injection e as _ <-. intros path m h. cbn [b_refs] in h.
  rewrite find_map_snd in h. destruct (findS path (b_refs s)) as [m0|] eqn:e0; [|discriminate h]. injection h as <-.
  assert (G : forall l (m : FileReferenceMap), map_ok m -> map_ok (fold_left (fun m i => del N.eqb i m) l m)).
  { clear. induction l as [|i l IH]; intros m h; [exact h|]. cbn [fold_left]. apply IH. apply nodup_del. exact h. }
  apply G. exact (k _ _ e0).
Qed.

Create HintDb kp.
Ltac reading :=
  repeat first
    [ apply reads_ret | apply reads_get | apply reads_opt | apply reads_data | apply reads_kids
    | apply reads_top | apply reads_fold; intros | apply reads_map; intros
    | apply reads_bind; [|intros]
    | match goal with |- reads (match ?x with _ => _ end) => destruct x end ].
Ltac still := repeat first
  [ apply still_bind; [|intros] | apply still_visit | apply still_names | apply still_new | apply still_arena
  | apply still_mod; reflexivity
  | match goal with |- still (match ?x with _ => _ end) => destruct x end
  | (apply still_reads; reading; fail) ].
Ltac keeping := repeat first
  [ apply keeps_forget | (progress intros) | solve [eauto 2 with kp] | apply keeps_bind; [|intros]
  | apply keeps_iter; intros | apply keeps_fold; intros
  | match goal with |- keeps_ok (match ?x with _ => _ end) => destruct x end
  | (apply still_keeps; still; fail) ].

Lemma keeps_source : forall fuel src, keeps_ok (source_to_ast fuel src).
Proof.
  intros fuel src s x s' e k. unfold source_to_ast in e.
  repeat match type of e with context [match ?y with _ => _ end] => destruct y; try discriminate e end; injection e as _ <-; exact k.
Qed.
#[local] Hint Resolve keeps_source : kp.

Lemma keeps_register : forall c, keeps_ok (register c).
Proof. intros c. unfold register. keeping. Qed.
#[local] Hint Resolve keeps_register : kp.
Lemma keeps_deregister : forall c, keeps_ok (deregister c).
Proof. intros c. unfold deregister. keeping. Qed.
#[local] Hint Resolve keeps_deregister : kp.
Lemma keeps_collect : forall fuel path nodes range, keeps_ok (collect_symbols fuel path nodes range).
Proof.
  intros fuel path nodes range. unfold collect_symbols. keeping; try apply keeps_register; try apply keeps_deregister.
Qed.
#[local] Hint Resolve keeps_collect : kp.
Lemma still_iter : forall A (f : A -> B unit) l, (forall x, still (f x)) -> still (eiter f l).
Proof.
  intros A f l h. induction l as [|x l IH]; cbn [eiter]; [apply still_reads, reads_ret|]. apply still_bind; auto.
Qed.
Lemma still_analyse : forall fuel path nodes, still (analyse fuel path nodes).
Proof.
  intros fuel path nodes. unfold analyse, purge_variables, add_note. still; apply still_iter; intros; still.
Qed.
Lemma analyse_ok : forall fuel path nodes s m s', analyse fuel path nodes s = Done (Some m) s' -> map_ok m.
Proof.
  intros fuel path nodes s m s' e. unfold analyse in e. step e. destruct (findS path x); [|discriminate e].
  step e. step e. step e. injection e as <- _. apply by_node_ok.
Qed.
Lemma keeps_put : forall path m, map_ok m -> keeps_ok (elet refs <- eget b_refs in set_refs (put str_eqb path m refs)).
Proof.
  intros path m h s x s' e k. injection e as _ <-. intros p m' h'. cbn [b_refs] in h'.
  rewrite find_put in h' by apply str_eqb_spec. destruct (str_eqb p path); [injection h' as <-; exact h|exact (k _ _ h')].
Qed.
Lemma keeps_references : forall fuel path nodes, keeps_ok (collect_references fuel path nodes).
Proof.
  intros fuel path nodes s x s' e k. unfold collect_references in e. step e. pose proof (still_keeps _ _ (still_analyse fuel path nodes) _ _ _ e1 k) as k1.
  destruct x0 as [m|]; [|injection e as _ <-; exact k1].
  exact (keeps_put path m (analyse_ok _ _ _ _ _ _ e1) _ _ _ e k1).
Qed.
#[local] Hint Resolve keeps_references : kp.
Lemma keeps_search : forall fuel disk name found path, keeps_ok (search_file fuel disk name found path).
Proof. intros. unfold search_file. keeping. Qed.
#[local] Hint Resolve keeps_search : kp.

Lemma serve_ok : forall fuel disk order e, keeps_ok (serve fuel disk order e).
Proof.
  intros fuel disk order e. destruct e; cbn [serve]; unfold ignore.
  - unfold init_workspace, index_path, index_result, rebuild_global. keeping.
  - unfold initialized. keeping.
  - unfold did_open. keeping.
  - unfold did_change, refresh_file. keeping.
  - unfold did_close. do 4 (apply keeps_bind; [apply still_keeps; still|intros]).
    intros s y s' e k. injection e as _ <-. intros p m h. cbn [b_refs] in h.
    rewrite find_del in h by apply str_eqb_spec. destruct (str_eqb path p); [discriminate h|exact (k _ _ h)].
  - induction paths as [|path l IH]; cbn [did_change_watched]; keeping.
  - unfold references, references_of. keeping.
  - unfold rename, references_of. keeping.
  - apply keeps_bind; [apply still_keeps, still_reads, reads_definition|keeping].
  - apply keeps_bind; [apply still_keeps, still_reads, reads_hover|keeping].
  - apply keeps_bind; [apply still_keeps, still_reads, reads_highlight|keeping].
  - apply keeps_bind; [apply still_keeps, still_reads, reads_query|keeping].
  - apply keeps_bind; [apply still_keeps, still_reads, reads_outline|keeping].
Qed.
End Highlight.

Section C41.
Context {RT : Runtime}.

Lemma reachable_refs_ok : forall s, reachable s -> refs_ok s.
Proof.
  induction 1 as [|s s' hs fuel disk order e h IH q].
  - intros path m h. discriminate h.
  - exact (serve_ok (HH := hs) fuel disk order e s tt s' q IH).
Qed.

(** Whatever the order in which the map is looked at: highlighting at [p] answers
    nothing only if no recorded occurrence contains [p]; otherwise it answers the
    recorded occurrences of one symbol, all of them, and one of them contains
    [p]. *)
Theorem C41_highlight : forall s order path p, reachable s -> (forall m, Permutation (order m) m) ->
  exists answer, document_highlight order path p s = Done answer s /\
  match answer with
  | None => forall i r, recorded s path i r -> in_range p (get_range r) = false
  | Some l => exists i, (exists r, recorded s path i r /\ in_range p (get_range r) = true) /\
      forall x, In x l <-> exists r, recorded s path i r /\ x = get_range r
  end.
Proof.
  intros s order path p h ho. apply reachable_refs_ok in h. unfold document_highlight, ebind, eget, eret.
  destruct (findS path (b_refs s)) as [m|] eqn:em.
  - pose proof (h _ _ em) as hm.
    destruct (List.find (fun e => touches p (snd e)) (order m)) as [[i rs]|] eqn:ef.
    + apply find_some in ef as [hi ht]. apply (Permutation_in _ (ho m)) in hi. cbn [snd] in ht.
      pose proof (in_find _ N.eqb_spec _ _ _ hm hi) as fi. rewrite fi. eexists. split; [reflexivity|]. cbn [opt_map].
      exists i. split.
      * unfold touches in ht. apply existsb_exists in ht as (r & hr & hp). exists r. split; [|exact hp]. exists m, rs. auto.
      * intros x. rewrite in_map_iff. split.
        -- intros (r & <- & hr). exists r. split; [|reflexivity]. exists m, rs. auto.
        -- intros (r & (m' & rs' & e1 & e2 & e3) & ->). rewrite em in e1. injection e1 as <-.
           apply (in_find _ N.eqb_spec _ _ _ hm) in e2. rewrite fi in e2. injection e2 as <-. eauto.
    + eexists. split; [reflexivity|]. intros i r (m' & rs & e1 & e2 & e3). rewrite em in e1. injection e1 as <-.
      apply (Permutation_in _ (Permutation_sym (ho m))) in e2. pose proof (List.find_none _ _ ef _ e2) as q. cbn [snd] in q.
      unfold touches in q. destruct (in_range p (get_range r)) eqn:er; [|reflexivity].
      assert (q' : existsb (fun r => in_range p (get_range r)) rs = true) by (apply existsb_exists; eauto). rewrite q' in q. discriminate q.
  - eexists. split; [reflexivity|]. intros i r (m' & rs & e1 & _). rewrite em in e1. discriminate e1.
Qed.

(** If only one symbol has an occurrence there, the order does not matter. *)
Theorem C41_order : forall s order order' path p, reachable s ->
  (forall m, Permutation (order m) m) -> (forall m, Permutation (order' m) m) ->
  (forall i j r q, recorded s path i r -> recorded s path j q ->
     in_range p (get_range r) = true -> in_range p (get_range q) = true -> i = j) ->
  document_highlight order path p s = document_highlight order' path p s.
Proof.
  intros s order order' path p h ho ho' hu. apply reachable_refs_ok in h. unfold document_highlight, ebind, eget, eret.
  destruct (findS path (b_refs s)) as [m|] eqn:em; [|reflexivity]. pose proof (h _ _ em) as hm.
  assert (S : forall o i rs, (forall m, Permutation (o m) m) -> List.find (fun e => touches p (snd e)) (o m) = Some (i, rs) ->
    exists r, recorded s path i r /\ in_range p (get_range r) = true /\ In (i, rs) m /\ touches p rs = true).
  { intros o i rs po ef. apply find_some in ef as [hi ht]. apply (Permutation_in _ (po m)) in hi. cbn [snd] in ht. pose proof ht as ht'.
    apply existsb_exists in ht as (r & hr & hp). exists r. split; [exists m, rs; auto|]. auto. }
  assert (E : forall o, (forall m, Permutation (o m) m) -> List.find (fun e => touches p (snd e)) (o m) = None -> forall i rs, In (i, rs) m -> touches p rs = false).
  { intros o po ef i rs hi. apply (Permutation_in _ (Permutation_sym (po m))) in hi. exact (List.find_none _ _ ef _ hi). }
  destruct (List.find (fun e => touches p (snd e)) (order m)) as [[i rs]|] eqn:e1;
  destruct (List.find (fun e => touches p (snd e)) (order' m)) as [[j qs]|] eqn:e2.
  - destruct (S _ _ _ ho e1) as (r & r1 & r2 & _). destruct (S _ _ _ ho' e2) as (q & q1 & q2 & _).
    rewrite (hu _ _ _ _ r1 q1 r2 q2). reflexivity.
  - destruct (S _ _ _ ho e1) as (r & _ & _ & hi & ht). rewrite (E _ ho' e2 _ _ hi) in ht. discriminate ht.
  - destruct (S _ _ _ ho' e2) as (r & _ & _ & hi & ht). rewrite (E _ ho e1 _ _ hi) in ht. discriminate ht.
  - reflexivity.
Qed.
End C41.

(** * A case *)

(** [$x] occurs twice. *)
Definition state41 : bst := state_after
  [(disk2 "<?php $x = 1; echo $x; $y = 2;" "<?php", EvIndex [pA]);
   (disk2 "<?php $x = 1; echo $x; $y = 2;" "<?php", EvOpen pA (lit ""))].
Example C41_case : reachable state41 /\ exists l, document_highlight (fun m => m) pA (mkPos 0 20) state41 = Done (Some l) state41 /\
  map (fun r => (pos_char (r_start r), pos_char (r_end r))) l = [(6, 8); (19, 21)].
Proof.
  split; [apply state_after_reachable|]. eexists. split; [vm_compute; reflexivity|vm_compute; reflexivity].
Qed.

Print Assumptions C41_highlight.
Print Assumptions C41_order.
