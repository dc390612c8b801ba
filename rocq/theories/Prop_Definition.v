(** Properties C50 and C51: go to definition, and what a hover shows. *)

From Coq Require Import Permutation.
From Verif Require Import Base Token Scanner SpecScanner Node DocBlock Parser Assoc AssocFacts Arena ArenaFacts
  Symbol EnvMonad EnvFacts Workspace WorkspaceFacts Resolver SpecNames ResolverFacts
  Backend BackendFacts Suggester Files SpecServer ServerInv Prop_Symbols Prop_Server Prop_References Prop_Highlight.

Local Notation findS := (find str_eqb).
Local Existing Instance ascii_runtime | 9.
Local Existing Instance plain_hashing | 9.
Local Open Scope string_scope.
Local Open Scope N_scope.
Local Open Scope list_scope.

(** * Specification *)

(** [f] is the closest file above the symbol [i]. *)
Inductive in_file (a : arena Symbol) : N -> N -> Prop :=
| in_file_top : forall i f d, parent_of a i = Some (Some f) -> data a f = Some d -> y_kind d = KFile -> in_file a i f
| in_file_up : forall i p d f, parent_of a i = Some (Some p) -> data a p = Some d -> y_kind d <> KFile ->
    in_file a p f -> in_file a i f.

(** The cursor is on an occurrence of [i]. *)
Definition pointed (s : bst) (path : str) (p : Position) (i : N) : Prop :=
  exists r, recorded s path i r /\ inside p (get_range r).

(** [block] are the lines [from] to [to] (counted from 0) of the text, as far as
    there are that many. *)
Definition line_block (text : str) (from to : N) (block : list str) : Prop :=
  exists before after, lines text = before ++ block ++ after /\
    N.of_nat (List.length before) = N.min from (N.of_nat (List.length (lines text))) /\
    N.of_nat (List.length block) = N.min (to - from + 1) (N.of_nat (List.length (lines text)) - from).

(** What is written around the lines *)
Definition framed (body : str) : str :=
  [10] ++ lit "# Documentation" ++ [10] ++ lit "```php" ++ [10] ++ lit "<?php" ++ [10] ++ body ++ [10] ++ lit "```" ++ [10].

(** [text] documents the symbol [i]: it consists of the lines of the
    declaration in the file on the disk. *)
Definition documents (disk : str -> option str) (a : arena Symbol) (i : N) (text : str) : Prop :=
  exists d, data a i = Some d /\
  ((exists f fd, (i = f \/ in_file a i f) /\ data a f = Some fd /\ y_kind fd = KFile /\
     match disk (y_name fd) with
     | None => text = framed (lit "Error reading source file")
     | Some content => exists block, line_block content (pos_line (r_start (y_range d))) (pos_line (r_end (y_range d))) block /\
         text = framed (List.concat (map (fun l => l ++ [10]) block))
     end)
   \/ (y_kind d <> KFile /\ (forall f, ~ in_file a i f) /\ text = y_name d)).

(** [i] is the innermost symbol of the file [f] at [p] (as in C20). *)
Definition innermost (a : arena Symbol) (f : N) (p : Position) (i : N) : Prop :=
  within a i f /\ (i = f \/ exists d, data a i = Some d /\ inside p (y_range d)) /\
  (forall c d, parent_of a c = Some (Some i) -> data a c = Some d ->
     y_kind d <> KNamespace -> y_kind d <> KMagicConst -> ~ inside p (y_range d)).

(** * Lemmas *)

Lemma kind_eqb_file : forall k, kind_eqb k KFile = true <-> k = KFile.
Proof. intros k. destruct k; cbn; split; congruence. Qed.

Lemma located : forall a n i o, location_loop n a i = Some o ->
  match o with
  | Some name => exists f d, in_file a i f /\ data a f = Some d /\ name = bare (y_name d)
  | None => forall f, ~ in_file a i f
  end.
Proof.
  induction n as [|n IH]; intros i o e; cbn [location_loop] in e; [discriminate e|].
  destruct (parent_of a i) as [[p|]|] eqn:ep; [|injection e as <-|discriminate e].
  2:{ intros f h. inversion h; congruence. }
  destruct (data a p) as [d|] eqn:ed; [|discriminate e].
  destruct (kind_eqb (y_kind d) KFile) eqn:ek.
  - injection e as <-. apply kind_eqb_file in ek. exists p, d. split; [eapply in_file_top; eauto|]. split; [exact ed|symmetry; apply bare_name].
  - assert (nk : y_kind d <> KFile) by (intros q; apply kind_eqb_file in q; congruence).
    apply IH in e. destruct o as [name|].
    + destruct e as (f & fd & h1 & h2). exists f, fd. split; [eapply in_file_up; eauto|exact h2].
    + intros f h. inversion h; subst.
      * rewrite ep in *. match goal with h : Some (Some _) = Some (Some _) |- _ => injection h as <- end. congruence.
      * rewrite ep in *. match goal with h : Some (Some _) = Some (Some _) |- _ => injection h as <- end. eapply e; eauto.
Qed.

Lemma touches_spec : forall p rs, touches p rs = true <-> exists r, In r rs /\ inside p (get_range r).
Proof.
  intros p rs. unfold touches. rewrite existsb_exists. split; intros (r & h & q); exists r; (split; [exact h|]); apply C19_position_test; exact q.
Qed.

Section Definition_.
Context {RT : Runtime} {HH : Hashing}.

(** * C50 *)

(** The answer is the file and the name of a symbol that the cursor is on an
    occurrence of; there is no answer only if all such symbols are outside of
    files.  Missing for the full statement: histories with several open files,
    searches for references or renaming, see [C24_refuted]. *)
Theorem C50_definition_partial : forall s order path p, solo s -> (forall m, Permutation (order m) m) ->
  exists answer, goto_definition order path p s = Done answer s /\
  match answer with
  | None => forall i, pointed s path p i -> forall f, ~ in_file (b_arena s) i f
  | Some (name, place) => exists i d f fd, pointed s path p i /\ data (b_arena s) i = Some d /\ place = y_sel d /\
      in_file (b_arena s) i f /\ data (b_arena s) f = Some fd /\ name = bare (y_name fd)
  end.
Proof.
  intros s order path p h ho. destruct (C24_definition_partial s order path p h ho) as (answer & e).
  exists answer. split; [exact e|]. unfold goto_definition, ebind, eget in e.
  destruct (findS path (b_refs s)) as [m|] eqn:em.
  2:{ injection e as <-. intros i (r & (m & rs & q & _) & _). congruence. }
  assert (G : forall l, (forall i rs, In (i, rs) l -> In (i, rs) m) -> forall answer, first_location p l s = Done answer s ->
    match answer with
    | None => forall i rs, In (i, rs) l -> touches p rs = true -> forall f, ~ in_file (b_arena s) i f
    | Some (name, place) => exists i d f fd, pointed s path p i /\ data (b_arena s) i = Some d /\ place = y_sel d /\
        in_file (b_arena s) i f /\ data (b_arena s) f = Some fd /\ name = bare (y_name fd)
    end).
  { clear e answer. induction l as [|[i rs] l IH]; intros hl answer e; cbn [first_location] in e.
    - injection e as <-. intros i rs [].
    - assert (IH' := IH (fun i rs hin => hl i rs (or_intror hin))). clear IH.
      destruct (touches p rs) eqn:et.
      + unfold ebind, eget in e. destruct (symbol_location (b_arena s) i) as [o|] eqn:eo; cbn [eopt] in e; [|discriminate e].
        unfold eret in e. unfold symbol_location in eo. destruct (data (b_arena s) i) as [d|] eqn:ed; [|discriminate eo].
        destruct (location_loop _ _ _) as [o'|] eqn:el; [|discriminate eo]. injection eo as <-. apply located in el.
        destruct o' as [name|]; cbn [opt_map] in e.
        * injection e as <-. destruct el as (f & fd & h1 & h2 & h3). exists i, d, f, fd.
          split; [|auto]. apply touches_spec in et as (r & hr & hp). exists r. split; [|exact hp].
          exists m, rs. split; [exact em|]. split; [apply hl; left; reflexivity|exact hr].
        * apply IH' in e. destruct answer as [[name place]|]; [exact e|]. intros j qs [q|q] t f.
          -- injection q as <- <-. apply el.
          -- exact (e j qs q t f).
      + apply IH' in e. destruct answer as [[name place]|]; [exact e|]. intros j qs [q|q] t f.
        * injection q as <- <-. congruence.
        * exact (e j qs q t f). }
  specialize (G (order m) (fun i rs hin => Permutation_in _ (ho m) hin) answer e).
  destruct answer as [[name place]|]; [exact G|].
  intros i (r & (m' & rs & e1 & e2 & e3) & hp) f. rewrite em in e1. injection e1 as <-.
  apply (G i rs); [apply (Permutation_in _ (Permutation_sym (ho m))); exact e2|]. apply touches_spec. eauto.
Qed.

(** On an occurrence of one symbol of a file only, the answer is its name there,
    whatever the order of the map. *)
Theorem C50_single_partial : forall s order path p i d f fd, solo s -> (forall m, Permutation (order m) m) ->
  pointed s path p i -> (forall j, pointed s path p j -> j = i) ->
  data (b_arena s) i = Some d -> in_file (b_arena s) i f -> data (b_arena s) f = Some fd ->
  goto_definition order path p s = Done (Some (bare (y_name fd), y_sel d)) s.
Proof.
  intros s order path p i d f fd h ho hi hu ed hf efd.
  destruct (C50_definition_partial s order path p h ho) as (answer & -> & h1).
  assert (U : forall f g, in_file (b_arena s) i f -> in_file (b_arena s) i g -> f = g).
  { clear. intros f g h1. revert g. induction h1 as [i f d h1 h2 h3|i p d f h1 h2 h3 h4 IH]; intros g h; inversion h; subst; try congruence.
    apply IH. rewrite h1 in *. match goal with q : Some (Some _) = Some (Some _) |- _ => injection q as -> end. assumption. }
  destruct answer as [[name place]|].
  - destruct h1 as (j & dj & g & gd & k1 & k2 & -> & k4 & k5 & ->). apply hu in k1. subst j.
    rewrite (U _ _ k4 hf) in k5. congruence.
  - elim (h1 i hi f hf).
Qed.

(** What the analysis of a file finds is what is recorded for it. *)
Lemma by_node_spec : forall l i r, (exists rs, In (i, rs) (references_by_node l) /\ In r rs) <-> In (r, i) l.
Proof.
  intros l i r. unfold references_by_node.
  assert (G : forall l m, map_ok m ->
    (exists rs, In (i, rs) (fold_left (fun m p => upsert N.eqb (snd p) [] (fun rs : list NodeRange => rs ++ [fst p]) m) l m) /\ In r rs) <->
    (exists rs, In (i, rs) m /\ In r rs) \/ In (r, i) l).
  { clear l. induction l as [|[r0 i0] l IH]; intros m hm; [cbn; tauto|]. cbn [fold_left fst snd].
    assert (hm' : map_ok (upsert N.eqb i0 [] (fun rs : list NodeRange => rs ++ [r0]) m))
      by (unfold upsert; apply nodup_put; [apply N.eqb_spec|exact hm]).
    rewrite (IH _ hm'). cbn [In].
    assert (Q : (exists rs, In (i, rs) (upsert N.eqb i0 [] (fun rs : list NodeRange => rs ++ [r0]) m) /\ In r rs) <->
                (exists rs, In (i, rs) m /\ In r rs) \/ (r0, i0) = (r, i)).
    { assert (F : forall m, map_ok m -> forall rs, In (i, rs) m <-> find N.eqb i m = Some rs).
      { intros m0 h0 rs. split; [apply in_find; [apply N.eqb_spec|exact h0]|apply find_in, N.eqb_spec]. }
      setoid_rewrite (F _ hm'). setoid_rewrite (F _ hm). unfold upsert. setoid_rewrite find_put; [|apply N.eqb_spec].
      destruct (N.eqb_spec i i0) as [->|ne].
      - split.
        + intros (rs & e & hr). injection e as <-. apply in_app_iff in hr as [hr|[->|[]]]; [|right; reflexivity].
          destruct (find N.eqb i0 m) as [old|]; [left; exists old; auto|destruct hr].
        + intros [(rs & e & hr)|e].
          * rewrite e. eexists. split; [reflexivity|]. apply in_app_iff. left. exact hr.
          * injection e as <-. eexists. split; [reflexivity|]. apply in_app_iff. right. left. reflexivity.
      - split; [intros h; left; exact h|]. intros [h|e]; [exact h|congruence]. }
    rewrite Q. tauto. }
  rewrite (G l [] ltac:(constructor)). split; [|right; assumption]. intros [(rs & [] & _)|h]; exact h.
Qed.

(** The occurrences that the resolver finds in the tree are recorded: they are
    what go to definition, hovers and highlighting look at. *)
Theorem C50_recorded : forall fuel path nodes s s' file, findS path (b_files s) = Some file ->
  collect_references fuel path nodes s = Done tt s' ->
  exists s1 t s2, purge_variables file s = Done tt s1 /\ resolve_names fuel nodes file s1 = Done t s2 /\
  forall i r, recorded s' path i r <-> exists l, find N.eqb file (r_refs t) = Some l /\ In (r, i) l.
Proof.
  intros fuel path nodes s s' file ef e. unfold collect_references in e. step e. unfold analyse in e1. step e1.
  injection e0 as <- <-. rewrite ef in e1. step e1. rename e0 into ep. step e1. rename e0 into er. step e1. rename e0 into en.
  injection e1 as <- <-. injection e as <-. destruct x0.
  eexists. eexists. eexists. split; [exact ep|]. split; [exact er|]. intros i r. unfold recorded.
  cbn [b_refs]. setoid_rewrite find_put; [|apply str_eqb_spec]. destruct (str_eqb_spec path path) as [_|q]; [|congruence].
  split.
  - intros (m & rs & q & h1 & h2). injection q as <-. assert (h : exists rs, In (i, rs) (references_by_node match find N.eqb file (r_refs x1) with Some l => l | None => [] end) /\ In r rs) by eauto.
    apply by_node_spec in h. destruct (find N.eqb file (r_refs x1)) as [l|]; [|destruct h]. eauto.
  - intros (l & q & h). rewrite q. apply by_node_spec in h as (rs & h1 & h2). eauto.
Qed.
End Definition_.

(** * C51 *)

(** The closest file, the symbol itself included *)
Definition file_here (a : arena Symbol) (i : N) (fd : Symbol) : Prop :=
  (data a i = Some fd /\ y_kind fd = KFile) \/
  (exists d f, data a i = Some d /\ y_kind d <> KFile /\ in_file a i f /\ data a f = Some fd).

Lemma in_file_kind : forall a i f, in_file a i f -> exists d, data a f = Some d /\ y_kind d = KFile.
Proof. induction 1; eauto. Qed.

Lemma ancestors_file : forall s n i l, wf (b_arena s) -> climb n (b_arena s) i = Some l ->
  exists o, efind (fun a => elet ad <- e_data a in
                            eret (if kind_eqb (y_kind ad) KFile then Some ad else None)) l s = Done o s /\
  match o with
  | Some fd => file_here (b_arena s) i fd
  | None => (forall d, data (b_arena s) i = Some d -> y_kind d <> KFile) /\ forall f, ~ in_file (b_arena s) i f
  end.
Proof.
  intros s n. induction n as [|n IH]; intros i l w e; cbn [climb] in e; [discriminate e|].
  destruct (node_of (b_arena s) i) as [nd|] eqn:en; [|discriminate e].
  assert (ed : data (b_arena s) i = Some (n_data nd)) by (apply data_node; exact en).
  assert (ep : parent_of (b_arena s) i = Some (n_parent nd)) by (unfold parent_of; rewrite en; reflexivity).
  assert (el : exists l', l = i :: l' /\ match n_parent nd with
                                        | Some p => climb n (b_arena s) p = Some l'
                                        | None => l' = []
                                        end).
  { destruct (n_parent nd) as [p|]; [|injection e as <-; eauto].
    destruct (climb n (b_arena s) p) as [r|]; [|discriminate e]. injection e as <-. eauto. }
  destruct el as (l' & -> & er). clear e. cbn [efind].
  unfold ebind at 1 2. unfold e_data at 1. cbn [the_arena bst_arena]. rewrite ed. unfold eret at 1.
  destruct (kind_eqb (y_kind (n_data nd)) KFile) eqn:ek.
  - eexists. split; [reflexivity|]. apply kind_eqb_file in ek. left. auto.
  - assert (nk : y_kind (n_data nd) <> KFile) by (intros q; apply kind_eqb_file in q; congruence).
    destruct (n_parent nd) as [p|] eqn:enp.
    + destruct (IH p l' w er) as (o & e1 & e2). exists o. split; [exact e1|].
      destruct o as [fd|].
      * right. destruct e2 as [(h1 & h2)|(d & f & h1 & h2 & h3 & h4)].
        -- exists (n_data nd), p. split; [exact ed|]. split; [exact nk|]. split; [|exact h1]. eapply in_file_top; eauto.
        -- exists (n_data nd), f. split; [exact ed|]. split; [exact nk|]. split; [|exact h4]. eapply in_file_up; eauto.
      * destruct e2 as (e2 & e3). split; [intros d q; congruence|]. intros f h. inversion h; subst; rewrite ep in *;
          match goal with q : Some (Some _) = Some (Some _) |- _ => injection q as <- end; [eapply e2|eapply e3]; eauto.
    + subst l'. eexists. split; [reflexivity|]. split; [intros d q; congruence|]. intros f h. inversion h; congruence.
Qed.

Lemma concat_min : forall k (l : list str), N.of_nat (List.length (firstn k l)) = N.min (N.of_nat k) (N.of_nat (List.length l)).
Proof. intros k l. rewrite firstn_length. lia. Qed.

Lemma block_lines : forall content from to, from <= to -> to + 1 < two32 ->
  line_block content from to (firstn (N.to_nat ((to + two32 - from + 1) mod two32)) (skipn (N.to_nat from) (lines content))).
Proof.
  intros content from to h1 h2.
  assert (e : (to + two32 - from + 1) mod two32 = to - from + 1).
  { replace (to + two32 - from + 1) with ((to - from + 1) + 1 * two32) by lia. rewrite N.mod_add by discriminate.
    apply N.mod_small. lia. }
  rewrite e. set (k := N.to_nat (to - from + 1)). exists (firstn (N.to_nat from) (lines content)), (skipn k (skipn (N.to_nat from) (lines content))).
  split; [|split].
  - rewrite firstn_skipn, firstn_skipn. reflexivity.
  - rewrite concat_min. lia.
  - rewrite concat_min, skipn_length. unfold k. lia.
Qed.

Section Hover.
Context {RT : Runtime} {HH : Hashing}.

(** Ranges go downwards and lines fit into 32 bits. *)
Definition proper (d : Symbol) : Prop :=
  pos_line (r_start (y_range d)) <= pos_line (r_end (y_range d)) /\ pos_line (r_end (y_range d)) + 1 < two32.

Lemma text_total : forall disk s i, wf (b_arena s) -> live (b_arena s) i ->
  (forall d, data (b_arena s) i = Some d -> proper d) ->
  exists text, hover_text disk i s = Done text s /\ documents disk (b_arena s) i text.
Proof.
  intros disk s i w li hp. destruct (ancestors_total _ _ w li) as (l & el). destruct li as (n & en).
  pose proof (data_node _ _ _ en) as ed. destruct (hp _ ed) as (p1 & p2).
  destruct (ancestors_file s _ i l w el) as (o & e1 & e2).
  unfold hover_text. unfold ebind at 1. unfold e_data at 1. cbn [the_arena bst_arena]. rewrite ed.
  unfold ebind at 1. unfold e_ancestors. unfold ebind at 1. unfold eget at 1. rewrite el. cbn [eopt]. unfold eret at 1.
  unfold ebind at 1. rewrite e1. unfold eret. eexists. split; [reflexivity|]. exists (n_data n). split; [exact ed|].
  destruct o as [fd|].
  - left. assert (hf : exists f, (i = f \/ in_file (b_arena s) i f) /\ data (b_arena s) f = Some fd /\ y_kind fd = KFile).
    { destruct e2 as [(h1 & h2)|(d & f & h1 & h2 & h3 & h4)]; [exists i; auto|]. exists f. split; [auto|]. split; [exact h4|].
      apply in_file_kind in h3 as (fd' & q1 & q2). congruence. }
    destruct hf as (f & h1 & h2 & h3). exists f, fd. split; [exact h1|]. split; [exact h2|]. split; [exact h3|].
    unfold file_read_range. destruct (disk (y_name fd)) as [content|]; [|reflexivity].
    eexists. split; [apply block_lines; assumption|reflexivity].
  - right. destruct e2 as (h1 & h2). split; [exact (h1 _ ed)|]. auto.
Qed.

(** A hover over the name of the innermost symbol shows the lines of its
    declaration, and marks all of it; elsewhere a hover over an occurrence of a
    symbol shows the declaration of that symbol, and marks the occurrence;
    elsewhere nothing is shown.  The lines are those of the file on the disk.

    Missing for the full statement: the histories that C24 excludes, and what
    the editor shows instead of what the disk has ([C51_refuted]). *)
Theorem C51_hover_partial : forall D disk s order path p f, solo s -> tame D s ->
  (forall m, Permutation (order m) m) -> findS path (b_files s) = Some f ->
  (forall i d, data (b_arena s) i = Some d -> proper d) ->
  exists answer me d, hover_answer disk order path p s = Done answer s /\
  innermost (b_arena s) f p me /\ data (b_arena s) me = Some d /\
  match answer with
  | Some (r, text) =>
      (inside p (y_sel d) /\ documents disk (b_arena s) me text /\ r = y_range d) \/
      (~ inside p (y_sel d) /\ exists i occ, recorded s path i occ /\ inside p (get_range occ) /\
         documents disk (b_arena s) i text /\ r = get_range occ)
  | None => ~ inside p (y_sel d) /\ forall i, ~ pointed s path p i
  end.
Proof.
  intros D disk s order path p f hs ht ho ef hp. destruct (C24_hover_partial D s order path p hs ht ho) as (o & e). pose proof e as heq.
  apply solo_sound in hs. apply tame_binv in ht as I. pose proof (wi_wf _ (so_inv _ hs)) as w.
  destruct (C20_innermost_partial (b_arena s) p f w) as (me & em & wi & h1 & h2).
  { destruct (bi_files _ _ I _ _ ef) as [(n & e0 & _) _]. unfold alive, data. rewrite e0. discriminate. }
  pose proof wi as wi'. apply Up_within in wi' as [lm _]. destruct (top_total _ _ w lm) as [tp et]. pose proof lm as lm'. destruct lm' as [n en].
  pose proof (data_node _ _ _ en) as ed.
  unfold hover in e. unfold ebind at 1 in e. unfold symbol_under_cursor in e. unfold ebind at 1 in e. unfold eget at 1 in e.
  rewrite ef in e. unfold ebind at 1 in e. unfold eget at 1 in e. rewrite em in e. cbn [eopt] in e. unfold ebind at 1 in e. unfold eret at 1 in e.
  unfold ebind at 1 in e. unfold e_data at 1 in e. cbn [the_arena bst_arena] in e. rewrite ed in e.
  unfold eret at 1 in e. unfold ebind at 1 in e. unfold ebind at 1 in e. unfold e_data at 1 in e. cbn [the_arena bst_arena] in e.
  rewrite ed in e. unfold hover_answer. unfold ebind at 1.
  rewrite heq. clear heq.
  destruct (in_range p (y_sel (n_data n))) eqn:er.
  - apply C19_position_test in er. unfold ebind, e_top in e. cbn [the_arena bst_arena] in e. rewrite et in e. injection e as <-.
    destruct (text_total disk s me w lm) as (text & e1 & e2); [intros; eapply hp; eauto|].
    eexists. exists me, (n_data n). split; [unfold ebind; rewrite e1; reflexivity|].
    split; [split; [exact wi|split; [exact h1|exact h2]]|]. split; [exact ed|]. left. auto.
  - assert (nr : ~ inside p (y_sel (n_data n))) by (intros q; apply C19_position_test in q; congruence).
    unfold ebind at 1 in e. unfold eret at 1 in e. unfold ebind at 1 in e. unfold eget at 1 in e.
    destruct (findS path (b_refs s)) as [m|] eqn:er1.
    2:{ injection e as <-. eexists. exists me, (n_data n). split; [reflexivity|].
        split; [split; [exact wi|split; [exact h1|exact h2]]|]. split; [exact ed|]. split; [exact nr|].
        intros i (r & (m & rs & q & _) & _). congruence. }
    destruct (List.find (fun e => touches p (snd e)) (order m)) as [[i rs]|] eqn:ei.
    + apply find_some in ei as [hi hti]. apply (Permutation_in _ (ho m)) in hi. cbn [snd] in hti.
      pose proof (so_live _ hs _ _ _ _ er1 hi) as li. destruct (top_total _ _ w li) as [ti eti]. pose proof li as li'. destruct li' as [ni eni].
      unfold ebind, e_data, e_top in e. cbn [the_arena bst_arena] in e. rewrite (data_node _ _ _ eni), eti in e. unfold eret in e.
      destruct (List.find (fun r => in_range p (get_range r)) rs) as [occ|] eqn:eo.
      * apply find_some in eo as [ho1 ho2]. injection e as <-.
        destruct (text_total disk s i w li) as (text & e1 & e2); [intros; eapply hp; eauto|].
        eexists. exists me, (n_data n). split; [cbn [opt_map]; unfold ebind; rewrite e1; reflexivity|].
        split; [split; [exact wi|split; [exact h1|exact h2]]|]. split; [exact ed|]. right. split; [exact nr|].
        exists i, occ. split; [exists m, rs; auto|]. split; [apply C19_position_test; exact ho2|]. auto.
      * exfalso. apply touches_spec in hti as (r & hr & q). apply C19_position_test in q.
        pose proof (List.find_none _ _ eo _ hr) as q'. cbn in q'. congruence.
    + injection e as <-. eexists. exists me, (n_data n). split; [reflexivity|].
      split; [split; [exact wi|split; [exact h1|exact h2]]|]. split; [exact ed|]. split; [exact nr|].
      intros i (r & (m' & rs & e1 & e2 & e3) & q). rewrite er1 in e1. injection e1 as <-.
      apply (Permutation_in _ (Permutation_sym (ho m))) in e2. pose proof (List.find_none _ _ ei _ e2) as q'. cbn [snd] in q'.
      assert (touches p rs = true) by (apply touches_spec; eauto). congruence.
Qed.

(** In code that is in no class and no function the innermost symbol is the
    file, of which the whole text counts as the name: whatever the cursor is on,
    the whole file is shown. *)
Theorem C51_top_refuted : forall D disk s order path p f fd, solo s -> tame D s ->
  (forall m, Permutation (order m) m) -> findS path (b_files s) = Some f ->
  (forall i d, data (b_arena s) i = Some d -> proper d) ->
  data (b_arena s) f = Some fd -> inside p (y_sel fd) -> (forall i, innermost (b_arena s) f p i -> i = f) ->
  exists text, hover_answer disk order path p s = Done (Some (y_range fd, text)) s /\
    documents disk (b_arena s) f text.
Proof.
  intros D disk s order path p f fd hs ht ho ef hp ed hi hu.
  destruct (C51_hover_partial D disk s order path p f hs ht ho ef hp) as (answer & me & d & e & h1 & h2 & h3).
  apply hu in h1. subst me. rewrite ed in h2. injection h2 as <-. destruct answer as [[r text]|].
  - destruct h3 as [(_ & h & ->)|(h & _)]; [|contradiction]. eauto.
  - destruct h3 as (h & _). contradiction.
Qed.
End Hover.

(** * Cases *)

Lemma proper_check : forall a : arena Symbol,
  forallb (fun p => (pos_line (r_start (y_range (n_data (snd p)))) <=? pos_line (r_end (y_range (n_data (snd p))))) &&
                    (pos_line (r_end (y_range (n_data (snd p)))) + 1 <? two32)) (a_nodes a) = true ->
  forall i d, data a i = Some d -> proper d.
Proof.
  intros a h i d e. unfold data, node_of in e. destruct (find N.eqb i (a_nodes a)) as [n|] eqn:ef; [|discriminate e].
  injection e as <-. apply find_in in ef; [|apply N.eqb_spec]. rewrite forallb_forall in h. apply h in ef. cbn [snd] in ef.
  apply andb_prop in ef as (h1 & h2). apply N.leb_le in h1. apply N.ltb_lt in h2. split; assumption.
Qed.

Definition text50 : string := "<?php
class Bear {
  function roar() {}
  function twice() { $this->roar(); $this->roar(); }
}
$b = new Bear();
$b->roar();".
Definition disk50 := disk2 text50 "<?php".
Definition history50 : list ((str -> option str) * event) :=
  [(disk50, EvIndex [pA; pB]); (disk50, EvOpen pA (lit text50))].
Definition names50 : list str := [pA; pB; lit "Bear"; lit "roar"; lit "twice"].

(** The cursor is on the second [roar] in the fourth line; the declaration is in
    the third. *)
Example C50_case : solo (state_after history50) /\
  goto_definition (fun m => m) pA (mkPos 3 44) (state_after history50) =
    Done (Some (pA, mkRng (mkPos 2 11) (mkPos 2 15))) (state_after history50).
Proof. split; [apply solo_play; vm_compute; reflexivity|vm_compute; reflexivity]. Qed.

Example C51_case : solo (state_after history50) /\ tame (fun k => In k names50) (state_after history50) /\
  (forall i d, data (b_arena (state_after history50)) i = Some d -> proper d) /\
  (exists f, findS pA (b_files (state_after history50)) = Some f) /\
  hover_answer disk50 (fun m => m) pA (mkPos 3 44) (state_after history50) =
    Done (Some (mkRng (mkPos 3 43) (mkPos 3 47), framed (lit "  function roar() {}" ++ [10]))) (state_after history50).
Proof.
  split; [apply solo_play; vm_compute; reflexivity|]. split.
  { apply tame_play.
    assert (hd : forall p text, disk50 p = Some text ->
      In (bare p) names50 /\ text_ok (fun k => In k names50) text).
    { apply tame_disk2; try (simpl; tauto); vm_compute; reflexivity. }
    repeat (apply Forall_cons; [split; [apply hd|exact I]|]). constructor. }
  split; [apply proper_check; vm_compute; reflexivity|]. split; [eexists; vm_compute; reflexivity|vm_compute; reflexivity].
Qed.

(** The same for the use of [roar] in the last line, where the whole file is shown *)
Example C51_top_case : solo (state_after history50) /\
  goto_definition (fun m => m) pA (mkPos 6 5) (state_after history50) =
    Done (Some (pA, mkRng (mkPos 2 11) (mkPos 2 15))) (state_after history50) /\
  hover_answer disk50 (fun m => m) pA (mkPos 6 5) (state_after history50) =
    Done (Some (mkRng (mkPos 0 0) (mkPos 6 11), framed (lit text50 ++ [10]))) (state_after history50).
Proof.
  split; [apply solo_play; vm_compute; reflexivity|]. split; vm_compute; reflexivity.
Qed.

(** The editor shows a class that the disk does not have yet; a hover over its
    name shows nothing of it. *)
Definition text51 : string := "<?php

class Lynx {}".
Definition state51 : bst := state_after (history50 ++ [(disk50, EvChange pA [lit text51])]).

Theorem C51_refuted : exists s path text p r answer d i, reachable s /\
  findS path (b_latest s) = Some (lit text) /\ SpecScanner.contains (lit "class Lynx") (lit text) /\
  symbol_under_cursor path p s = Done (Some (i, lit "Lynx")) s /\ data (b_arena s) i = Some d /\ inside p (y_sel d) /\
  hover_answer disk50 (fun m => m) path p s = Done (Some (r, answer)) s /\
  ~ SpecScanner.contains (lit "Lynx") answer.
Proof.
  exists state51, pA, text51, (mkPos 2 7). eexists. eexists. eexists. eexists.
  split; [apply state_after_reachable|]. split; [vm_compute; reflexivity|].
  split; [exists (lit "<?php

"), (lit " {}"); vm_compute; reflexivity|].
  split; [vm_compute; reflexivity|]. split; [vm_compute; reflexivity|].
  split; [apply C19_position_test; vm_compute; reflexivity|]. split; [vm_compute; reflexivity|].
  assert (D : forall t, forallb (fun c => negb (c =? 76)) t = true -> ~ SpecScanner.contains (lit "Lynx") t).
  { intros t H (a & b & ->). rewrite !forallb_app in H. cbn in H. now rewrite andb_false_r in H. }
  apply D. vm_compute. reflexivity.
Qed.

Print Assumptions C50_definition_partial.
Print Assumptions C50_single_partial.
Print Assumptions C50_recorded.
Print Assumptions C51_hover_partial.
Print Assumptions C51_refuted.
Print Assumptions C51_top_refuted.
