(** Property C56: finding the uses of a symbol. *)

From Coq Require Import Permutation.
From Verif Require Import Base Token Scanner Node DocBlock Parser Assoc AssocFacts Arena ArenaFacts
  Symbol EnvMonad EnvFacts Workspace WorkspaceFacts Resolver SpecNames ResolverFacts
  Backend BackendFacts SpecServer ServerInv IndexFacts Prop_Server Prop_Edits Prop_References Prop_Highlight.

Local Notation findS := (find str_eqb).
Local Existing Instance ascii_runtime | 9.
Local Existing Instance plain_hashing | 9.
Local Open Scope string_scope.
Local Open Scope N_scope.
Local Open Scope list_scope.

(** * Specification *)

Section Spec.
Context {RT : Runtime} {HH : Hashing}.

(** The text has the name in it, spelled in this way. *)
Definition mentions (text name : str) : Prop := exists a b, text = a ++ name ++ b.

(** The files are looked at one after the other: those that can be read, have
    the name in them and can be scanned are analysed (mod.rs:462-520), each
    in the state the analyses before it leave.  The last list says what the
    analyses record: for each symbol the places that use it. *)
Inductive analysed (fuel : nat) (disk : str -> option str) (name : str)
  : list str -> bst -> bst -> list (str * FileReferenceMap) -> Prop :=
| an_end : forall s, analysed fuel disk name [] s s []
| an_unreadable : forall q l s s' r, disk q = None -> analysed fuel disk name l s s' r ->
    analysed fuel disk name (q :: l) s s' r
| an_without : forall q text l s s' r, disk q = Some text -> ~ mentions text name ->
    analysed fuel disk name l s s' r -> analysed fuel disk name (q :: l) s s' r
| an_broken : forall q text l s s' r, disk q = Some text -> mentions text name -> syntax fuel text = None ->
    analysed fuel disk name l s s' r -> analysed fuel disk name (q :: l) s s' r
| an_file : forall q text nodes m l s s1 s' r, disk q = Some text -> mentions text name ->
    syntax fuel text = Some nodes -> analyse fuel q nodes s = Done (Some m) s1 ->
    analysed fuel disk name l s1 s' r -> analysed fuel disk name (q :: l) s s' ((q, m) :: r).

(** * Proofs *)

Lemma starts_spec : forall p s, starts_with p s = true <-> exists b, s = p ++ b.
Proof.
  induction p as [|c p IH]; intros s; cbn [starts_with app].
  - split; eauto.
  - destruct s as [|d s]; [split; [discriminate|intros (b & h); discriminate]|].
    rewrite Bool.andb_true_iff, N.eqb_eq, IH. split.
    + intros (-> & b & ->). eauto.
    + intros (b & h). injection h as -> ->. eauto.
Qed.
Lemma contains_spec : forall text name, contains text name = true <-> mentions text name.
Proof.
  unfold mentions. induction text as [|c text IH]; intros name; cbn [contains]; rewrite Bool.orb_true_iff, starts_spec.
  - split; [intros [(b & h)|h]; [exists [], b; exact h|discriminate]|].
    intros (a & b & h). destruct a; [left; exists b; exact h|discriminate].
  - rewrite IH. split.
    + intros [(b & h)|(a & b & ->)]; [exists [], b; exact h|exists (c :: a), b; reflexivity].
    + intros (a & b & h). destruct a as [|x a]; [left; exists b; exact h|]. injection h as -> ->. right. eauto.
Qed.

Lemma put_fresh : forall q (m : FileReferenceMap) l, ~ In q (keys l) -> put str_eqb q m l = l ++ [(q, m)].
Proof.
  intros q m. induction l as [|[k v] l IH]; cbn [put keys map In fst app]; intros h; [reflexivity|].
  destruct (str_eqb_spec q k) as [->|ne]; [elim h; auto|]. rewrite IH by auto. reflexivity.
Qed.

Lemma analyse_files : forall fuel path nodes s x s', analyse fuel path nodes s = Done x s' -> b_files s' = b_files s.
Proof. intros fuel path nodes s x s' e. apply analyse_frame in e. apply e. Qed.

Lemma search_steps : forall fuel disk name l s s' found found', NoDup l -> (forall q, In q l -> findS q (b_files s) <> None) ->
  (forall q, In q l -> ~ In q (keys found)) ->
  efold (search_file fuel disk name) found l s = Done found' s' ->
  exists r, analysed fuel disk name l s s' r /\ found' = found ++ r.
Proof.
  induction l as [|q l IH]; intros s s' found found' nd hf hk e; cbn [efold] in e.
  - injection e as <- <-. exists []. rewrite app_nil_r. split; [constructor|reflexivity].
  - inversion nd as [|q' l' ni nd']; subst. take e as e1. unfold search_file in e1.
    assert (skip : x = found -> t = s -> exists r, analysed fuel disk name l s s' r /\ found' = found ++ r).
    { intros -> ->. eapply IH; [exact nd'| | |exact e]; intros; [apply hf|apply hk]; right; assumption. }
    destruct (disk q) as [text|] eqn:ed.
    2:{ injection e1 as -> ->. destruct (skip eq_refl eq_refl) as (r & h & ->). exists r. split; [apply an_unreadable; assumption|reflexivity]. }
    destruct (contains text name) eqn:ec.
    2:{ injection e1 as -> ->. destruct (skip eq_refl eq_refl) as (r & h & ->). exists r. split; [|reflexivity].
        eapply an_without; [exact ed| |exact h]. rewrite <- contains_spec. congruence. }
    apply contains_spec in ec. take e1 as es. apply source_spec in es as [-> hx].
    destruct x0 as [[[nodes rg] errors]|].
    2:{ injection e1 as -> ->. destruct (skip eq_refl eq_refl) as (r & h & ->). exists r. split; [|reflexivity].
        eapply an_broken; eassumption. }
    take e1 as ea. injection e1 as <- <-. destruct x0 as [m|].
    + pose proof (analyse_files _ _ _ _ _ _ ea) as ef. rewrite put_fresh in e by (apply hk; left; reflexivity).
      apply IH in e as (r & h & ->); [|exact nd'| |].
      * exists ((q, m) :: r). split; [eapply an_file; eassumption|]. rewrite <- app_assoc. reflexivity.
      * intros q' hq. rewrite ef. apply hf. right. exact hq.
      * intros q' hq hi. unfold keys in hi. rewrite map_app in hi. apply in_app_iff in hi as [hi|[hi|[]]].
        -- eapply hk; [right; exact hq|exact hi].
        -- cbn in hi. subst q'. contradiction.
    + exfalso. unfold analyse in ea. take ea as e0. injection e0 as <- <-.
      destruct (findS q (b_files s)) as [file|] eqn:eq; [|apply (hf q); [left; reflexivity|exact eq]].
      take ea as e0. take ea as e1. take ea as e2. discriminate ea.
Qed.

Lemma find_in_N : forall (m : FileReferenceMap) i rs, NoDup (keys m) -> (find N.eqb i m = Some rs <-> In (i, rs) m).
Proof.
  induction m as [|[k v] m IH]; intros i rs nd; cbn [find keys map In fst] in *; [split; [discriminate|contradiction]|].
  inversion nd as [|k' l' ni nd']; subst. destruct (N.eqb_spec i k) as [->|ne].
  - split; [intros [= <-]; left; reflexivity|]. intros [h|h]; [injection h as <-; reflexivity|].
    elim ni. apply (in_map fst) in h. exact h.
  - rewrite (IH _ _ nd'). split; [auto|]. intros [h|h]; [congruence|exact h].
Qed.

Lemma analysed_maps : forall fuel disk name l s s' r, analysed fuel disk name l s s' r ->
  forall q m, In (q, m) r -> NoDup (keys m).
Proof.
  intros fuel disk name l s s' r h. induction h; intros q' m' hi; eauto.
  - destruct hi.
  - destruct hi as [hi|hi]; [|eauto]. injection hi as <- <-. apply analyse_ok in H2. apply H2.
Qed.

(** * C56 *)

(** In every state the server can be in, the answer lists exactly the places
    that the analyses of the files with the symbol's name in them record for
    the symbol at the cursor.  All indexed files are looked at.  What is
    missing for the full statement: uses with another spelling of the name
    and variables, see C56_refuted and C25, and changes that are not saved. *)
Theorem C56_places_partial : forall s s' fuel disk path p answer, reachable s ->
  references fuel disk path p s = Done (Some answer) s' ->
  exists file id d files found,
    findS path (b_files s) = Some file /\ symbol_at (b_arena s) p file = Some id /\ data (b_arena s) id = Some d /\
    Permutation files (map fst (b_files s)) /\ analysed fuel disk (sym_name d) files s s' found /\
    forall q place, In (q, place) answer <->
      exists m rs r, In (q, m) found /\ In (id, rs) m /\ In r rs /\ place = get_range r.
Proof.
  intros s s' fuel disk path p answer r e. apply reachable_winv in r. unfold references in e. take e as e1.
  unfold symbol_under_cursor in e1. take e1 as e0. injection e0 as <- <-.
  destruct (findS path (b_files s)) as [file|] eqn:ef; [|injection e1 as <- <-; discriminate e].
  take e1 as e0. injection e0 as <- <-. take e1 as e0. apply eopt_done in e0 as [es ->].
  take e1 as e0. apply reads_data in e0 as e2. subst. unfold e_data in e0. cbn [the_arena bst_arena] in e0.
  destruct (data (b_arena s) x0) as [d|] eqn:ed; [|discriminate]. injection e0 as <-. injection e1 as <- <-.
  take e as e1. injection e as <- <-. unfold references_of in e1. take e1 as e0. injection e0 as <- <-.
  apply search_steps in e1 as (found & h & ->).
  - exists file, x0, d, (map fst (h_order (b_files s))), found. do 3 (split; [first [assumption|reflexivity]|]).
    split; [apply Permutation_map, h_perm|]. split; [exact h|]. intros q place. rewrite in_flat_map. cbn [app]. split.
    + intros ((q' & m) & hi & hp). cbn [fst snd] in hp. apply in_rev in hi.
      apply (Permutation_in _ (h_perm _ _)) in hi. destruct (find N.eqb x0 m) as [rs|] eqn:em; [|destruct hp].
      apply in_map_iff in hp as (rg & eq & hr). injection eq as <- <-. exists m, rs, rg. split; [exact hi|].
      split; [|auto]. apply find_in_N; [|exact em]. eapply analysed_maps; eassumption.
    + intros (m & rs & rg & hi & hm & hr & ->). exists (q, m). split.
      * apply -> in_rev. apply (Permutation_in _ (Permutation_sym (h_perm _ _))). exact hi.
      * cbn [fst snd]. rewrite (proj2 (find_in_N m x0 rs (analysed_maps _ _ _ _ _ _ _ h _ _ hi)) hm).
        apply in_map_iff. exists rg. auto.
  - apply (Permutation_NoDup (l := map fst (b_files s))); [apply Permutation_map, Permutation_sym, h_perm|apply (wi_nodup _ r)].
  - intros q hq. apply in_map_iff in hq as ((q' & f) & <- & hi). cbn.
    apply (Permutation_in _ (h_perm _ _)) in hi. rewrite (in_find str_eqb str_eqb_spec q' f _ (wi_nodup _ r) hi). discriminate.
  - intros q _ [].
Qed.

(** Renaming (C25) edits exactly these places of the symbol that is used at
    the cursor.  What is missing for the full statement: for variables the
    analyses record other symbols than the one at the cursor, see C25_refuted. *)
Theorem C25_edits_partial : forall s s' fuel disk order path p new answer, reachable s ->
  (forall m, Permutation (order m) m) ->
  rename fuel disk order path p new s = Done (Some answer) s' ->
  exists m id rs r d files found,
    findS path (b_refs s) = Some m /\ In (id, rs) m /\ In r rs /\ in_range p (get_range r) = true /\
    data (b_arena s) id = Some d /\
    Permutation files (map fst (b_files s)) /\ analysed fuel disk (y_name d) files s s' found /\
    forall q place text, (exists edits, In (q, edits) answer /\ In (place, text) edits) <->
      text = new /\ exists m rs r, In (q, m) found /\ In (id, rs) m /\ In r rs /\ place = get_range r.
Proof.
  intros s s' fuel disk order path p new answer r ho e. apply reachable_winv in r. unfold rename in e.
  take e as e1. injection e1 as <- <-. destruct (findS path (b_refs s)) as [m|] eqn:em; [|discriminate e]. cbn [obind] in e.
  destruct (referenced_symbol order p m) as [id|] eqn:er; [|discriminate e].
  unfold referenced_symbol in er. destruct (List.find _ (order m)) as [[id' rs]|] eqn:ef; [|discriminate]. injection er as <-.
  apply List.find_some in ef as [hi ht]. apply (Permutation_in _ (ho _)) in hi. cbn [fst snd] in ht.
  unfold touches in ht. apply existsb_exists in ht as (rg & hr & hp).
  take e as e0. apply reads_data in e0 as e2. subst. unfold e_data in e0. cbn [the_arena bst_arena fst] in *.
  destruct (data (b_arena s) id') as [d|] eqn:ed; [|discriminate]. injection e0 as <-.
  take e as e1. injection e as <- <-. unfold references_of in e1. take e1 as e0. injection e0 as <- <-.
  apply search_steps in e1 as (found & h & ->).
  - exists m, id', rs, rg, d, (map fst (h_order (b_files s))), found. do 5 (split; [first [assumption|reflexivity]|]).
    split; [apply Permutation_map, h_perm|]. split; [exact h|]. intros q place text. cbn [app]. split.
    + intros (edits & h1 & h2). apply in_map_iff in h1 as ((q' & m') & eq & h1). injection eq as <- <-. cbn [fst snd] in *.
      apply in_flat_map in h2 as ((j & rs') & h2 & h3). cbn [fst snd] in h3.
      destruct (N.eqb_spec j id') as [->|ne]; [|destruct h3]. apply in_map_iff in h3 as (r0 & eq & h3). injection eq as <- <-.
      split; [reflexivity|]. exists m', rs', r0. auto.
    + intros (-> & m' & rs' & r0 & h1 & h2 & h3 & ->). eexists. split; [apply in_map_iff; exists (q, m'); split; [reflexivity|exact h1]|].
      cbn [snd]. apply in_flat_map. exists (id', rs'). split; [exact h2|]. cbn [fst snd]. rewrite N.eqb_refl.
      apply in_map_iff. exists r0. auto.
  - apply (Permutation_NoDup (l := map fst (b_files s))); [apply Permutation_map, Permutation_sym, h_perm|apply (wi_nodup _ r)].
  - intros q hq. apply in_map_iff in hq as ((q' & f) & <- & hi'). cbn.
    apply (Permutation_in _ (h_perm _ _)) in hi'. rewrite (in_find str_eqb str_eqb_spec q' f _ (wi_nodup _ r) hi'). discriminate.
  - intros q _ [].
Qed.
End Spec.

(** The class [A] is declared in one file and used twice in another. *)
Definition disk56 := disk2 "<?php class A { }" "<?php new A(); new A();".
Definition state56 : bst := state_after [(disk56, EvIndex [pA; pB]); (disk56, EvInitialized); (disk56, EvOpen pA [])].
Example C56_case : reachable state56 /\
  exists s' places, references 400 disk56 pA (mkPos 0 13) state56 = Done (Some places) s' /\
    map fst places = [pB; pB; pA].
Proof.
  split; [apply state_after_reachable|]. do 2 eexists. split; [vm_compute; reflexivity|reflexivity].
Qed.

(** The class is renamed at the first of its uses. *)
Example C25_edits_case : exists s' answer,
  let s := state_after [(disk56, EvIndex [pA; pB]); (disk56, EvInitialized); (disk56, EvOpen pB [])] in
  rename 400 disk56 (fun m => m) pB (mkPos 0 10) (lit "C") s = Done (Some answer) s' /\
  map (fun f => (fst f, List.length (snd f))) answer = [(pA, 1%nat); (pB, 2%nat)].
Proof. do 2 eexists. split; [vm_compute; reflexivity|reflexivity]. Qed.

(** The full statement is false: class names can be written in any case, and
    a use in another case is recorded but not found. *)
Definition disk56b := disk2 "<?php class A { }" "<?php new a();".
Definition state56b : bst := state_after [(disk56b, EvIndex [pA; pB]); (disk56b, EvInitialized); (disk56b, EvOpen pB [])].
Theorem C56_refuted : reachable state56b /\ exists f id m rs places s',
  findS pA (b_files state56b) = Some f /\ symbol_at (b_arena state56b) (mkPos 0 13) f = Some id /\
  findS pB (b_refs state56b) = Some m /\ In (id, rs) m /\ List.length rs = 1%nat /\
  references 400 disk56b pA (mkPos 0 13) state56b = Done (Some places) s' /\
  forall place, ~ In (pB, place) places.
Proof.
  split; [apply state_after_reachable|]. do 6 eexists.
  split; [vm_compute; reflexivity|]. split; [vm_compute; reflexivity|]. split; [vm_compute; reflexivity|].
  split; [left; reflexivity|]. split; [reflexivity|]. split; [vm_compute; reflexivity|].
  intros place [h|[]]. discriminate h.
Qed.

Print Assumptions C56_places_partial.
Print Assumptions C56_refuted.
Print Assumptions C25_edits_partial.
