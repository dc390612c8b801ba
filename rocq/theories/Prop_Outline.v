(** Property C52: the outline of a file. *)

From Verif Require Import Base Token Scanner Node DocBlock Parser Assoc AssocFacts Arena ArenaFacts
  Symbol EnvMonad EnvFacts Workspace WorkspaceFacts Resolver SpecNames ResolverFacts
  Backend BackendFacts SpecServer ServerInv Prop_Symbols Prop_Server.

Local Notation findS := (find str_eqb).
Local Existing Instance ascii_runtime | 9.
Local Existing Instance plain_hashing | 9.
Local Open Scope string_scope.
Local Open Scope N_scope.
Local Open Scope list_scope.

(** * Specification *)

(** The numbers of the kinds in the protocol (SymbolKind); traits are shown as
    classes.  Other things are not shown. *)
Definition kind_number (k : PhpSymbolKind) : option N :=
  match k with
  | KFile => Some 1 | KNamespace => Some 3 | KClass | KTrait => Some 5 | KMethod => Some 6 | KProperty => Some 7
  | KField => Some 8 | KConstructor => Some 9 | KInterface => Some 11 | KFunction => Some 12 | KVariable => Some 13
  | KConstant => Some 14 | KString => Some 15 | KNumber => Some 16 | KBoolean => Some 17 | KArray => Some 18
  | KObject => Some 19 | KKey => Some 20 | KNull => Some 21 | KOperator => Some 25
  | KImport | KBuiltInType | KMagicConst | KFunctionParameter | KUnknown => None
  end.
Definition shown (a : arena Symbol) (i : N) : bool :=
  match data a i with Some d => is_some (kind_number (y_kind d)) | None => false end.

(** The entry stands for the symbol [i]: it has its name, kind, range and the
    range of its name, and below it there is one entry for each child that is
    shown, in the same order. *)
Inductive stands_for (a : arena Symbol) : N -> DocSym -> Prop :=
| stands : forall i d k l types docs, data a i = Some d -> kind_number (y_kind d) = Some k ->
    kids a i = Some l -> Forall2 (stands_for a) (filter (shown a) l) docs ->
    stands_for a i (mkDoc (y_name d) k (y_range d) (y_sel d) types docs).

(** An entry somewhere in the outline *)
Inductive listed : list DocSym -> DocSym -> Prop :=
| listed_here : forall l e, In e l -> listed l e
| listed_below : forall l name k r sel types sub e, In (mkDoc name k r sel types sub) l -> listed sub e -> listed l e.

(** The types of the variables are symbols that still exist. *)
Definition types_alive (a : arena Symbol) : Prop :=
  forall i d r n, data a i = Some d -> y_kind d = KVariable -> In r (y_types d) -> sr_node r = Some n -> alive a n.

(** * Lemmas *)

Lemma number_spec : forall k, lsp_kind k = kind_number k.
Proof. intros k. destruct k; reflexivity. Qed.
Lemma internal_spec : forall k, is_internal k = true -> kind_number k = None.
Proof. intros k. destruct k; cbn; congruence. Qed.

Section Outline.
Context {RT : Runtime} {HH : Hashing}.

Lemma types_done : forall s l, (forall n, In n l -> alive (b_arena s) n) ->
  exists ts, emap (fun n => elet td <- e_data n in eret (y_name td)) l s = Done ts s.
Proof.
  intros s. induction l as [|n l IH]; intros h; cbn [emap]; [eexists; reflexivity|].
  unfold ebind at 1 2. unfold e_data at 1. cbn [the_arena bst_arena].
  destruct (data (b_arena s) n) as [d|] eqn:e; [|elim (h n); [left; reflexivity|exact e]].
  unfold eret at 1. unfold ebind at 1. destruct IH as (ts & ->); [intros; apply h; right; assumption|]. eexists. reflexivity.
Qed.

(** One symbol, given its children *)
Lemma doc_sym_spec : forall s, wf (b_arena s) -> types_alive (b_arena s) ->
  forall fuel i l, below fuel (b_arena s) i = Some l ->
  exists o, to_doc_sym fuel i s = Done o s /\
    match o with
    | Some e => shown (b_arena s) i = true /\ stands_for (b_arena s) i e
    | None => shown (b_arena s) i = false
    end.
Proof.
  intros s w ta. induction fuel as [|fuel IH]; intros i l e; [discriminate|].
  rewrite below_S in e. destruct (node_of (b_arena s) i) as [n|] eqn:en; [|discriminate].
  destruct (below_list fuel (b_arena s) (n_kids n)) as [lk|] eqn:ek; [|discriminate].
  assert (b : forall c, In c (n_kids n) -> exists lc, below fuel (b_arena s) c = Some lc)
    by (intros c h; eapply below_list_in; eauto).
  pose proof (data_node _ _ _ en) as ed.
  assert (ec : kids (b_arena s) i = Some (n_kids n)) by (unfold kids; rewrite en; reflexivity).
  cbn [to_doc_sym]. unfold ebind at 1. unfold e_data at 1. cbn [the_arena bst_arena]. rewrite ed.
  unfold ebind at 1. unfold e_kids at 1. cbn [the_arena bst_arena]. rewrite ec.
  assert (F : forall ks acc, (forall c, In c ks -> In c (n_kids n)) ->
    exists docs, efold (fun l c =>
          elet cd <- e_data c in
          if is_internal (y_kind cd) then eret l
          else elet o <- to_doc_sym fuel c in eret (l ++ opt_list o)) acc ks s = Done (acc ++ docs) s /\
      Forall2 (stands_for (b_arena s)) (filter (shown (b_arena s)) ks) docs).
  { clear lk ek e. induction ks as [|c ks IHk]; intros acc hk; cbn [efold].
    - exists []. rewrite app_nil_r. split; [reflexivity|constructor].
    - destruct (wf_down _ w _ _ _ en (hk c (or_introl eq_refl))) as (m & em & _). pose proof (data_node _ _ _ em) as edc.
      unfold ebind at 1 2. unfold e_data at 1. cbn [the_arena bst_arena]. rewrite edc.
      assert (IHk' : forall acc, exists docs, efold (fun l c =>
          elet cd <- e_data c in
          if is_internal (y_kind cd) then eret l
          else elet o <- to_doc_sym fuel c in eret (l ++ opt_list o)) acc ks s = Done (acc ++ docs) s /\
        Forall2 (stands_for (b_arena s)) (filter (shown (b_arena s)) ks) docs)
        by (intros acc'; apply IHk; intros; apply hk; right; assumption).
      cbn [filter]. destruct (is_internal (y_kind (n_data m))) eqn:ei.
      + unfold eret at 1. apply internal_spec in ei. unfold shown at 1. rewrite edc, ei. cbn [is_some]. apply IHk'.
      + destruct (b c (hk c (or_introl eq_refl))) as (lc & elc). destruct (IH _ _ elc) as (o & e1 & e2).
        unfold ebind at 1. rewrite e1. unfold eret at 1. destruct (IHk' (acc ++ opt_list o)) as (docs & e3 & e4).
        destruct o as [x|].
        * destruct e2 as (e5 & e6). rewrite e5. exists (x :: docs). rewrite e3, <- app_assoc. split; [reflexivity|].
          constructor; assumption.
        * rewrite e2. exists docs. cbn [opt_list] in *. rewrite e3, app_nil_r. auto. }
  destruct (F (n_kids n) [] (fun c h => h)) as (docs & e1 & e2). cbn [app] in e1.
  unfold ebind at 1. rewrite e1. rewrite number_spec.
  destruct (kind_number (y_kind (n_data n))) as [k|] eqn:ek2.
  - assert (T : exists ts, (match y_kind (n_data n) with
             | KVariable =>
                 emap (fun n => elet td <- e_data n in eret (y_name td))
                   (flat_map (fun r => opt_list (sr_node r)) (y_types (n_data n)))
             | _ => eret []
             end) s = Done ts s).
    { destruct (y_kind (n_data n)) eqn:ekind; try (eexists; reflexivity). apply types_done. intros m hm.
      apply in_flat_map in hm as (r & h1 & h2). destruct (sr_node r) as [m'|] eqn:er; [|destruct h2].
      destruct h2 as [<-|[]]. eapply ta; eauto. }
    destruct T as (ts & et). unfold ebind at 1. rewrite et. eexists. split; [reflexivity|]. split.
    + unfold shown. rewrite ed, ek2. reflexivity.
    + eapply stands; eauto.
  - eexists. split; [reflexivity|]. unfold shown. rewrite ed, ek2. reflexivity.
Qed.

(** * C52 *)

(** The outline of a file has one entry for each symbol at the top of the file
    that is shown, in their order; each entry is like the symbol and has the
    entries of its children below it.  Missing for the full statement: variables
    whose type is no longer there ([C52_refuted]). *)
Theorem C52_outline_partial : forall s path f fuel, reachable s -> types_alive (b_arena s) ->
  findS path (b_files s) = Some f -> alive (b_arena s) f ->
  (List.length (a_nodes (b_arena s)) < fuel)%nat ->
  exists cs l, kids (b_arena s) f = Some cs /\ document_symbol fuel path s = Done (Some l) s /\
    Forall2 (stands_for (b_arena s)) (filter (shown (b_arena s)) cs) l.
Proof.
  intros s path f fuel hr ta ef al lf. apply reachable_winv in hr. pose proof (wi_wf _ hr) as w.
  assert (li : live (b_arena s) f).
  { unfold alive, data in al. destruct (node_of (b_arena s) f) as [n|] eqn:e; [exists n; auto|now elim al]. }
  unfold document_symbol. unfold ebind at 1. unfold eget at 1. rewrite ef. destruct li as (n & en).
  unfold ebind at 1. unfold e_kids. cbn [the_arena bst_arena]. unfold kids. rewrite en. cbn [opt_map].
  assert (F : forall ks, (forall c, In c ks -> In c (n_kids n)) -> exists os,
    emap (to_doc_sym fuel) ks s = Done os s /\
    Forall2 (stands_for (b_arena s)) (filter (shown (b_arena s)) ks) (flat_map opt_list os)).
  { induction ks as [|c ks IH]; intros h; cbn [emap]; [exists []; split; [reflexivity|constructor]|].
    destruct (wf_down _ w _ _ _ en (h c (or_introl eq_refl))) as (m & em & _).
    destruct (descendants_total _ c w (ex_intro _ m em)) as (l & el).
    assert (el' : exists l, below fuel (b_arena s) c = Some l).
    { exists l. eapply below_fuel; [exact el|]. lia. }
    destruct el' as (l' & el'). destruct (doc_sym_spec s w ta fuel c l' el') as (o & e1 & e2).
    destruct IH as (os & e3 & e4); [intros; apply h; right; assumption|].
    exists (o :: os). unfold ebind. rewrite e1, e3. split; [reflexivity|]. cbn [filter flat_map].
    destruct o as [x|].
    - destruct e2 as (q1 & q2). rewrite q1. cbn [opt_list app]. constructor; assumption.
    - rewrite e2. exact e4. }
  destruct (F (n_kids n) (fun c h => h)) as (os & e1 & e2). exists (n_kids n), (flat_map opt_list os).
  split; [reflexivity|]. split; [|exact e2]. unfold ebind. rewrite e1. reflexivity.
Qed.

(** Each shown symbol of the file that is below shown symbols only is listed,
    and nothing else is. *)
Inductive seen (a : arena Symbol) (f : N) : N -> Prop :=
| seen_top : forall i cs, kids a f = Some cs -> In i cs -> shown a i = true -> seen a f i
| seen_below : forall p i cs, seen a f p -> kids a p = Some cs -> In i cs -> shown a i = true -> seen a f i.

Lemma forall2_right : forall {A B} (P : A -> B -> Prop) l m x, Forall2 P l m -> In x l -> exists y, In y m /\ P x y.
Proof. intros A B P l m x h. induction h; intros []; subst; [eexists; split; [left; reflexivity|auto]|]. destruct (IHh H0) as (z & ? & ?). exists z. split; [right; assumption|assumption]. Qed.
Lemma forall2_left : forall {A B} (P : A -> B -> Prop) l m y, Forall2 P l m -> In y m -> exists x, In x l /\ P x y.
Proof. intros A B P l m x h. induction h; intros []; subst; [eexists; split; [left; reflexivity|auto]|]. destruct (IHh H0) as (z & ? & ?). exists z. split; [right; assumption|assumption]. Qed.
Lemma listed_sub : forall l e, listed l e -> forall name k r sel types sub x, e = mkDoc name k r sel types sub -> In x sub -> listed l x.
Proof.
  induction 1 as [l e h|l name k r sel types sub e h h' IH]; intros name' k' r' sel' types' sub' x -> hx.
  - eapply listed_below; [exact h|]. apply listed_here. exact hx.
  - eapply listed_below; [exact h|]. eapply IH; [reflexivity|exact hx].
Qed.

Theorem C52_complete_partial : forall s path f fuel l, reachable s -> types_alive (b_arena s) ->
  findS path (b_files s) = Some f -> alive (b_arena s) f ->
  (List.length (a_nodes (b_arena s)) < fuel)%nat ->
  document_symbol fuel path s = Done (Some l) s ->
  (forall i, seen (b_arena s) f i -> exists e, listed l e /\ stands_for (b_arena s) i e) /\
  (forall e, listed l e -> exists i, seen (b_arena s) f i /\ stands_for (b_arena s) i e).
Proof.
  intros s path f fuel l hr ta ef al lf ed.
  destruct (C52_outline_partial s path f fuel hr ta ef al lf) as (cs & l' & ec & ed' & F).
  rewrite ed in ed'. injection ed' as <-. split.
  - induction 1 as [i cs' e1 e2 e3|p i cs' h IH e1 e2 e3].
    + rewrite ec in e1. injection e1 as <-. destruct (forall2_right _ _ _ i F) as (e & h1 & h2); [apply filter_In; auto|].
      exists e. split; [apply listed_here; exact h1|exact h2].
    + destruct IH as (e & h1 & h2). inversion h2 as [p' d k cs'' types docs q1 q2 q3 q4 q5]. subst p' e.
      rewrite e1 in q3. injection q3 as <-. destruct (forall2_right _ _ _ i q4) as (e & h3 & h4); [apply filter_In; auto|].
      exists e. split; [|exact h4]. eapply listed_sub; [exact h1|reflexivity|exact h3].
  - assert (G : forall l e, listed l e -> forall ks, Forall2 (stands_for (b_arena s)) (filter (shown (b_arena s)) ks) l ->
        (forall i, In i ks -> shown (b_arena s) i = true -> seen (b_arena s) f i) ->
        exists i, seen (b_arena s) f i /\ stands_for (b_arena s) i e).
    { clear. induction 1 as [l e h|l name k r sel types sub e h h' IH]; intros ks F hk;
        destruct (forall2_left _ _ _ _ F h) as (i & h1 & h2); apply filter_In in h1 as (h1 & h3).
      - exists i. split; [apply hk; assumption|exact h2].
      - inversion h2 as [p' d k' cs'' types' docs q1 q2 q3 q4 q5]. subst. eapply IH; [exact q4|].
        intros j hj sj. eapply seen_below; [apply hk; [exact h1|exact h3]|exact q3|exact hj|exact sj]. }
    intros e he. eapply G; [exact he|exact F|]. intros i hi si. eapply seen_top; eauto.
Qed.
End Outline.

(** ** Cases *)

Definition text52a : string := "<?php class K { public $p; public function m($q) { $v = 1; return $v; } const X = 1; } function g() {}".
Definition state52 := state_after [(disk2 text52a "<?php", EvIndex [pA; pB]); (disk2 text52a "<?php", EvOpen pA (lit text52a))].
Fixpoint names_of (n : nat) (l : list DocSym) : list (str * N) :=
  match n with
  | O => []
  | S m => flat_map (fun e => match e with mkDoc name k _ _ _ sub => (name, k) :: names_of m sub end) l
  end.
Definition types_check (a : arena Symbol) : bool :=
  forallb (fun x => forallb (fun r => match sr_node r with Some n => is_some (data a n) | None => true end)
    (y_types (n_data (snd x)))) (a_nodes a).
Lemma types_check_spec : forall a, types_check a = true -> types_alive a.
Proof.
  intros a h i d r n ed _ hr en. unfold types_check in h. rewrite forallb_forall in h.
  unfold data, node_of in ed. destruct (find N.eqb i (a_nodes a)) as [m|] eqn:em; [|discriminate]. injection ed as <-.
  apply find_in in em; [|apply N.eqb_spec]. specialize (h _ em). cbn [snd] in h. rewrite forallb_forall in h. specialize (h _ hr).
  rewrite en in h. unfold alive. destruct (data a n); [discriminate|discriminate h].
Qed.

(** Parameters and imports are not in the outline. *)
Example C52_case : reachable state52 /\ types_alive (b_arena state52) /\
  (exists f, findS pA (b_files state52) = Some f /\ alive (b_arena state52) f) /\
  match document_symbol 400 pA state52 with
  | Done (Some l) s =>
      names_of 5 l = [(lit "K", 5); (lit "$p", 7); (lit "m", 6); (lit "$v", 13); (lit "X", 14); (lit "g", 12)]
  | _ => False
  end.
Proof.
  split; [apply state_after_reachable|]. split; [apply types_check_spec; vm_compute; reflexivity|].
  split; [eexists; split; [vm_compute; reflexivity|intros h; vm_compute in h; discriminate h]|].
  vm_compute. reflexivity.
Qed.

(** ** Refutation: the outline of a file after a change of another one

    The type of a variable is the symbol of a class.  When the file of the class
    is read again its symbols are removed, and the outline of the file with the
    variable follows the type to a symbol that is gone. *)
Definition text52x : string := "<?php function f() { $x = new K(); return $x; }".
Definition disk52x := disk2 "<?php class K {}" text52x.
Definition history52x :=
  [(disk52x, EvIndex [pA; pB]); (disk52x, EvOpen pB (lit text52x)); (disk52x, EvWatched [pA])].

Theorem C52_refuted : exists s path f, reachable s /\ findS path (b_files s) = Some f /\ alive (b_arena s) f /\
  document_symbol 400 path s = Panic.
Proof.
  exists (state_after history52x), pB. eexists. split; [apply state_after_reachable|].
  split; [vm_compute; reflexivity|]. split; [intros h; vm_compute in h; discriminate h|vm_compute; reflexivity].
Qed.

Print Assumptions C52_outline_partial.
Print Assumptions C52_complete_partial.
Print Assumptions C52_refuted.
