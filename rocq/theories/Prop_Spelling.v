(** Property C61: names are checked where they are used. *)

From Coq Require Import Permutation Relations.
From Verif Require Import Base Token Scanner Node DocBlock Parser Assoc AssocFacts Arena ArenaFacts
  Symbol EnvMonad EnvFacts Workspace WorkspaceFacts Resolver SpecNames ResolverFacts TokenFacts
  Backend BackendFacts SpecServer ServerInv Prop_Server Prop_Names Prop_Members Prop_Overrides Prop_Access
  Prop_Inherit Prop_Chains.
From Verif Require Prop_Implementation.

Local Notation findS := (find str_eqb).
Local Open Scope string_scope.
Local Open Scope N_scope.
Local Open Scope list_scope.

Section Spelling.
Context {RT : Runtime} {HH : Hashing}.

(** * Specification *)

(** The name of a declaration with its namespace *)
Definition full_name (d : Symbol) : str :=
  match y_ns d with Some ns => ns ++ lit "\" ++ sym_name d | None => sym_name d end.
(** Written with the same letters; a leading backslash of the declaration does
    not count. *)
Definition spelled (d : Symbol) (name : str) : Prop := full_name d = name \/ full_name d = lit "\" ++ name.

(** The messages [l] are new. *)
Definition says (s s' : rst) (l : list Notification) : Prop := r_diags s' = r_diags s ++ l.
Definition a_message (n : Notification) (sev : Severity) (r : NodeRange) : Prop := nt_severity n = sev /\ nt_range n = r.

(** [self], [static] or [parent] as the first word of a type *)
Definition relative (tr : TypeRef) (w : str) : Prop :=
  tref_is_builtin tr || tref_is_empty tr = false /\ tref_root tr = Some (Some w).
(** The place of a name that is looked up for the first time *)
Definition first_time (s : rst) (tr : TypeRef) (anchor file : N) (r : NodeRange) : Prop :=
  top (r_arena s) anchor = Some file /\ data (r_arena s) file <> None /\ tref_range tr = Some r /\
  find unique_eqb (file, r) (r_cache s) = None.

Definition mismatch_message : str := lit "Case mismatch between call and definition".
Definition warned (s : rst) (m : Node) : Prop :=
  exists n r, In n (r_diags s) /\ node_range m = Some r /\ a_message n SevWarning r /\ nt_message n = mismatch_message.

(** * Proofs *)
Lemma spelled_iff : forall d name, fqdn_matches d name = true <-> spelled d name.
Proof.
  intros d name. unfold fqdn_matches, spelled. change (fqdn d) with (full_name d).
  destruct (str_eqb_spec (full_name d) name) as [e|n1]; [tauto|].
  destruct (str_eqb_spec (full_name d) (lit "\" ++ name)) as [e|n2]; [tauto|].
  destruct (str_eqb_spec (lit "\" ++ full_name d) (lit "\" ++ name)) as [e|n3].
  - injection e as e. contradiction.
  - split; [discriminate|]. intros [h|h]; contradiction.
Qed.

(** ** Names of classes *)

(** A known name is linked; there is a warning if it is spelled differently, and
    nothing else is said. *)
Theorem C61_type_partial : forall fuel tr anchor reg s w full node d,
  asks s tr anchor w full ->
  findS (to_lowercase (joined full)) (r_global s) = Some node -> data (r_arena s) node = Some d ->
  exists s' file r, resolve_type_ref (S fuel) tr anchor reg s = Done (Some node) s' /\
    top (r_arena s) anchor = Some file /\ tref_range tr = Some r /\
    (reg = true -> referenced s' file r node) /\
    (spelled d (joined full) -> says s s' []) /\
    (~ spelled d (joined full) -> exists n, says s s' [n] /\ a_message n SevWarning r).
Proof.
  intros fuel tr anchor reg s w full node d ha hf hd.
  destruct (resolve_step fuel tr anchor reg s w full ha) as (file & fd & rg & h1 & h2 & h3 & ->).
  rewrite hf. unfold ebind at 1. unfold eret at 1.
  pose proof (spelled_iff d (joined full)) as hs. unfold says, a_message.
  destruct reg; unfold ebind at 1.
  - destruct (reference file rg node s) as [u s1| |] eqn:er; [|discriminate er..].
    assert (hr : referenced s1 file rg node) by (eapply referenced_new; exact er).
    unfold reference, emod in er. injection er as _ <-.
    unfold ebind at 1. unfold e_data. cbn [the_arena rst_arena r_arena]. rewrite hd.
    destruct (fqdn_matches d (joined full)); eexists; exists file, rg; (split; [reflexivity|]); repeat (split; [assumption|]);
      (split; [intros _; destruct hr as (l & q1 & q2); exists l; split; [exact q1|exact q2]|]).
    + split; [cbn; now rewrite app_nil_r|]. intros hn. exfalso. tauto.
    + split; [intros hn; exfalso; destruct hs as [_ hs]; specialize (hs hn); discriminate hs|]. intros _. eexists. split; [reflexivity|]. auto.
  - unfold eret at 1. unfold ebind at 1. unfold e_data. cbn [the_arena rst_arena]. rewrite hd.
    destruct (fqdn_matches d (joined full)); eexists; exists file, rg; (split; [reflexivity|]); repeat (split; [assumption|]);
      (split; [discriminate|]).
    + split; [cbn; now rewrite app_nil_r|]. intros hn. exfalso. tauto.
    + split; [intros hn; exfalso; destruct hs as [_ hs]; specialize (hs hn); discriminate hs|]. intros _. eexists. split; [reflexivity|]. auto.
Qed.

(** [self], [static] and [parent] outside of classes are errors; inside they are
    not. *)
Lemma relative_step : forall fuel tr anchor reg s w file r, relative tr w -> first_time s tr anchor file r ->
  exists fd, data (r_arena s) file = Some fd /\
  resolve_type_ref (S fuel) tr anchor reg s =
   (elet class <- eget r_class in
            if str_eqb w (lit "self") || str_eqb w (lit "static") then
              match class with
              | Some c => edo cache_put (file, r) (Some c) in eret (Some c)
              | None =>
                  edo note (mkNote (sym_name fd) (lit "Can only be used inside a class") r SevError) in
                  edo cache_put (file, r) None in
                  eret None
              end
            else if str_eqb w (lit "parent") then
              match class with
              | Some c =>
                  elet me <- e_data c in
                  elet p <- unique_parent (resolve_type_ref fuel) me c in
                  edo cache_put (file, r) p in
                  eret p
              | None =>
                  edo note (mkNote (sym_name fd) (lit "Parent can only be used inside a class") r SevError) in
                  edo cache_put (file, r) None in
                  eret None
              end
            else
              elet imports <- eopt (available_imports
                (match y_imports fd with Some l => l | None => [] end)) in
              elet anchor_symbol <- e_data anchor in
              elet ns <- current_namespace anchor_symbol file in
              elet joined <- eopt (joined_name tr w imports ns) in
              elet global <- eget r_global in
              elet found <-
                (match find str_eqb (to_lowercase joined) global with
                 | Some node => eret (Some (node, joined))
                 | None =>
                     match find str_eqb (to_lowercase w) global with
                     | Some node => eret (Some (node, w))
                     | None =>
                         edo note (mkNote (sym_name fd)
                           (lit "Unresolvable type (" ++ debug_bool (tref_is_fully_qualified tr)
                            ++ lit ") '" ++ joined ++ lit "'") r SevError) in
                         eret None
                     end
                 end) in
              match found with
              | None => edo cache_put (file, r) None in eret None
              | Some (node, comp) =>
                  edo (if reg then reference file r node else eret tt) in
                  elet d <- e_data node in
                  edo (if fqdn_matches d comp then eret tt
                       else note (mkNote (sym_name fd)
                              (lit "Case mismatch between call and definition " ++ comp ++ lit " vs "
                               ++ fqdn d) r SevWarning)) in
                  edo cache_put (file, r) (Some node) in
                  eret (Some node)
              end) s.
Proof.
  intros fuel tr anchor reg s w file r [hb hr] (h1 & h2 & h3 & h4).
  destruct (data (r_arena s) file) as [fd|] eqn:hd; [|contradiction]. exists fd. split; [reflexivity|].
  cbn [resolve_type_ref]. rewrite hb. unfold ebind at 1. unfold e_top. cbn [the_arena rst_arena]. rewrite h1.
  unfold ebind at 1. unfold e_data at 1. cbn [the_arena rst_arena]. rewrite hd.
  unfold ebind at 1. rewrite hr. unfold eopt at 1, eret at 1. unfold ebind at 1. unfold eopt at 1, eret at 1.
  unfold ebind at 1. rewrite h3. unfold eopt at 1, eret at 1. unfold ebind at 1. unfold eget at 1. rewrite h4. reflexivity.
Qed.
Theorem C61_outside : forall fuel tr anchor reg s w file r,
  relative tr w -> In w [lit "self"; lit "static"; lit "parent"] -> first_time s tr anchor file r -> r_class s = None ->
  exists s' n, resolve_type_ref (S fuel) tr anchor reg s = Done None s' /\ says s s' [n] /\ a_message n SevError r.
Proof.
  intros fuel tr anchor reg s w file r hw hi hf hc.
  destruct (relative_step fuel tr anchor reg s w file r hw hf) as (fd & hd & ->).
  unfold ebind at 1, eget at 1. rewrite hc. cbn [In] in hi. unfold says, a_message.
  destruct hi as [<-|[<-|[<-|[]]]]; eexists _, _; split; try reflexivity; split; reflexivity || auto.
Qed.
Theorem C61_inside : forall fuel tr anchor reg s w file r c,
  relative tr w -> In w [lit "self"; lit "static"] -> first_time s tr anchor file r -> r_class s = Some c ->
  exists s', resolve_type_ref (S fuel) tr anchor reg s = Done (Some c) s' /\ says s s' [].
Proof.
  intros fuel tr anchor reg s w file r c hw hi hf hc.
  destruct (relative_step fuel tr anchor reg s w file r hw hf) as (fd & hd & ->).
  unfold ebind at 1, eget at 1. rewrite hc. cbn [In] in hi. unfold says.
  destruct hi as [<-|[<-|[]]]; eexists; (split; [reflexivity|]); cbn; now rewrite app_nil_r.
Qed.

(** [parent] inside of a class stands for its parent and is not reported: what is
    said is about the name of the parent in the declaration of the class. *)
Lemma named_says : forall fuel tr anchor reg s o s', tref_root tr <> Some (Some (lit "parent")) -> r_class s <> None ->
  resolve_type_ref fuel tr anchor reg s = Done o s' ->
  exists l, says s s' l /\ Forall (fun n => tref_range tr = Some (nt_range n)) l.
Proof.
  intros [|fuel] tr anchor reg s o s' hw hcl h; [discriminate h|]. unfold says. cbn [resolve_type_ref] in h.
  assert (Z : forall s2 : rst, r_diags s2 = r_diags s -> exists l, r_diags s2 = r_diags s ++ l /\ Forall (fun n => tref_range tr = Some (nt_range n)) l).
  { intros s2 q. exists []. rewrite app_nil_r. auto. }
  destruct (tref_is_builtin tr || tref_is_empty tr); [injection h as _ <-; apply Z; reflexivity|].
  unfold ebind at 1, e_top in h. cbn [the_arena rst_arena] in h. destruct (top (r_arena s) anchor) as [file|]; [|discriminate h].
  unfold ebind at 1, e_data at 1 in h. cbn [the_arena rst_arena] in h. destruct (data (r_arena s) file) as [fd|]; [|discriminate h].
  unfold ebind at 1 in h. destruct (tref_root tr) as [root|]; cbn [eopt] in h; [|discriminate h].
  change (eret root s) with (Done root s) in h. cbv beta iota in h.
  unfold ebind at 1 in h. destruct root as [w|]; cbn [eopt] in h; [|discriminate h].
  change (eret w s) with (Done w s) in h. cbv beta iota in h.
  unfold ebind at 1 in h. destruct (tref_range tr) as [r|]; cbn [eopt] in h; [|discriminate h].
  change (eret r s) with (Done r s) in h. cbv beta iota in h.
  unfold ebind at 1, eget at 1 in h. destruct (find unique_eqb (file, r) (r_cache s)) as [x|]; [injection h as _ <-; apply Z; reflexivity|].
  unfold ebind at 1, eget at 1 in h. destruct (r_class s) as [c|]; [|contradiction].
  destruct (str_eqb w (lit "self") || str_eqb w (lit "static")); [injection h as _ <-; apply Z; reflexivity|].
  destruct (str_eqb_spec w (lit "parent")) as [->|_]; [congruence|].
  assert (O : forall A (o : option A) (s1 s2 : rst) x, eopt o s1 = Done x s2 -> s2 = s1).
  { intros A [x0|] s1 s2 x q; [injection q as _ <-; reflexivity|discriminate q]. }
  unfold ebind at 1 in h.
  match type of h with match ?m with _ => _ end = _ => destruct m as [im s1| |] eqn:e1; try discriminate h end.
  apply O in e1. subst s1. unfold ebind at 1, e_data at 1 in h. cbn [the_arena rst_arena] in h.
  destruct (data (r_arena s) anchor) as [an|]; [|discriminate h]. unfold ebind at 1 in h.
  assert (C : forall ns s1, current_namespace an file s = Done ns s1 -> s1 = s).
  { intros ns s1 q. unfold current_namespace in q. destruct (y_ns an); [injection q as _ <-; reflexivity|].
    assert (F : forall l o0 s2, efind (fun c0 => elet s3 <- e_data c0 in
        eret (if kind_eqb (y_kind s3) KNamespace then Some (sym_name s3) else None)) l s = Done o0 s2 -> s2 = s).
    { induction l as [|x l IH]; intros o0 s2 q0; cbn [efind] in q0; [injection q0 as _ <-; reflexivity|].
      unfold ebind at 1 in q0. unfold ebind at 1 in q0. unfold e_data at 1 in q0. destruct (data (the_arena s) x) as [dx|]; [|discriminate q0].
      unfold eret at 1 in q0. destruct (kind_eqb (y_kind dx) KNamespace); [injection q0 as _ <-; reflexivity|eapply IH; exact q0]. }
    unfold ebind at 1 in q. unfold e_kids in q. destruct (kids (the_arena s) file) as [l|]; [|discriminate q].
    unfold ebind at 1 in q.
    match type of q with match ?m with _ => _ end = _ => destruct m as [o0 s2| |] eqn:e; try discriminate q end.
    apply F in e. subst s2. injection q as _ <-. reflexivity. }
  match type of h with match ?m with _ => _ end = _ => destruct m as [ns s1| |] eqn:e2; try discriminate h end.
  pose proof (C _ _ eq_refl). subst s1. unfold ebind at 1 in h.
  match type of h with match ?m with _ => _ end = _ => destruct m as [jn s1| |] eqn:e3; try discriminate h end.
  apply O in e3. subst s1. unfold ebind at 1, eget at 1 in h. unfold ebind at 1 in h.
  assert (R : forall node comp, (edo (if reg then reference file r node else eret tt) in
                  elet d <- e_data node in
                  edo (if fqdn_matches d comp then eret tt
                       else note (mkNote (sym_name fd)
                              (lit "Case mismatch between call and definition " ++ comp ++ lit " vs "
                               ++ fqdn d) r SevWarning)) in
                  edo cache_put (file, r) (Some node) in
                  eret (Some node)) s = Done o s' ->
     exists l, r_diags s' = r_diags s ++ l /\ Forall (fun n => Some r = Some (nt_range n)) l).
  { intros node comp q. unfold ebind at 1 in q.
    match type of q with match ?m with _ => _ end = _ =>
      assert (E : exists s2, m = Done tt s2 /\ r_diags s2 = r_diags s) by (destruct reg; eexists; split; reflexivity) end.
    destruct E as (s2 & eq2 & ed2). rewrite eq2 in q. rewrite <- ed2. unfold ebind at 1, e_data in q. destruct (data (the_arena s2) node) as [d|]; [|discriminate q].
    unfold ebind at 1 in q. destruct (fqdn_matches d comp).
    - injection q as _ <-. exists []. rewrite app_nil_r. auto.
    - injection q as _ <-. eexists. split; [reflexivity|]. repeat constructor. }
  destruct (findS (to_lowercase jn) (r_global s)) as [node|]; [exact (R _ _ h)|].
  destruct (findS (to_lowercase w) (r_global s)) as [node|]; [exact (R _ _ h)|].
  injection h as _ <-. eexists. split; [reflexivity|]. repeat constructor.
Qed.
Theorem C61_parent : forall fuel tr anchor reg s file r c o s' me,
  relative tr (lit "parent") -> first_time s tr anchor file r -> r_class s = Some c -> data (r_arena s) c = Some me ->
  resolve_type_ref (S fuel) tr anchor reg s = Done o s' ->
  (the_list (y_inherits me) = [] -> o = None /\ says s s' []) /\
  (forall p, child_of s c p -> o = Some p) /\
  (forall e, y_inherits me = Some [e] -> tref_root (sr_type e) <> Some (Some (lit "parent")) ->
     exists l, says s s' l /\ Forall (fun n => tref_range (sr_type e) = Some (nt_range n)) l).
Proof.
  intros fuel tr anchor reg s file r c o s' me hw hf hc hme h.
  destruct (relative_step fuel tr anchor reg s _ file r hw hf) as (fd & hd & q). rewrite q in h. clear q.
  unfold ebind at 1, eget at 1 in h. rewrite hc in h.
  change (str_eqb (lit "parent") (lit "self") || str_eqb (lit "parent") (lit "static")) with false in h.
  change (str_eqb (lit "parent") (lit "parent")) with true in h. cbv iota in h.
  assert (e : exists s2, (elet d <- e_data c in unique_parent (resolve_type_ref fuel) d c) s = Done o s2 /\ r_diags s' = r_diags s2).
  { revert h. unfold ebind at 1. unfold ebind at 3. destruct (e_data c s) as [d s1| |]; try discriminate.
    unfold ebind at 1. destruct (unique_parent (resolve_type_ref fuel) d c s1) as [o1 s2| |]; try discriminate.
    intros q. injection q as <- <-. exists s2. auto. }
  destruct e as (s2 & e & ed). split; [|split].
  - intros hi. unfold ebind at 1, e_data at 1 in e. cbn [the_arena rst_arena] in e. rewrite hme in e.
    unfold unique_parent, parent_nodes in e. fold (the_list (y_inherits me)) in e. rewrite hi in e. injection e as <- <-.
    split; [reflexivity|]. unfold says. rewrite app_nil_r. exact ed.
  - intros p hp. destruct (parent_one _ _ _ _ _ _ _ hp (near_refl _) e) as [q _]. exact q.
  - intros x hi hx. unfold says. rewrite ed. unfold ebind at 1, e_data at 1 in e. cbn [the_arena rst_arena] in e. rewrite hme in e.
    unfold unique_parent, parent_nodes in e. rewrite hi in e. cbn [efold] in e.
    unfold ebind at 1 in e. unfold ebind at 1 in e. unfold ebind at 1 in e.
    destruct (resolve_type_ref fuel (sr_type x) c false s) as [z s3| |] eqn:er; try discriminate e.
    destruct (named_says fuel (sr_type x) c false s z s3 hx) as (l & hl & hF); [congruence|exact er|].
    exists l. split; [|exact hF]. rewrite <- hl. destruct z as [n|].
    + unfold ebind at 1, e_data in e. destruct (data (the_arena s3) n) as [dn|]; [|discriminate e].
      injection e as _ <-. reflexivity.
    + injection e as _ <-. reflexivity.
Qed.

(** Imports: the name is linked, with a warning if it is spelled differently. *)
Theorem C61_import : forall fuel file parent s u decl al ty name node d fd r r',
  node_name decl = Some name -> findS (to_lowercase name) (r_global s) = Some node ->
  data (r_arena s) node = Some d -> data (r_arena s) file = Some fd ->
  node_range decl = Some r -> node_range (NUseDeclaration u decl al ty) = Some r' ->
  exists s', n_visit fuel file (NUseDeclaration u decl al ty) parent s = Done None s' /\
    referenced s' file r' node /\
    (spelled d name -> says s s' []) /\
    (~ spelled d name -> exists n, says s s' [n] /\ a_message n SevWarning r).
Proof.
  intros fuel file parent s u decl al ty name node d fd r r' h1 h2 h3 h4 h5 h6. cbn [n_visit]. rewrite h1, h5, h6.
  unfold ebind at 1. cbn [eopt]. change (eret name s) with (Done name s). cbv beta iota.
  unfold ebind at 1. unfold resolve_fully_qualified, ebind at 1, eget at 1. rewrite h2. unfold eret at 1.
  unfold ebind at 1, e_data at 1. cbn [the_arena rst_arena]. rewrite h3.
  pose proof (spelled_iff d name) as hs. unfold says, a_message.
  destruct (fqdn_matches d name).
  - unfold ebind at 1. change (eret tt s) with (Done tt s). cbv beta iota.
    unfold ebind at 1. cbn [eopt]. change (eret r' s) with (Done r' s). cbv beta iota.
    unfold ebind at 1. destruct (reference file r' node s) as [x s1| |] eqn:er; [|discriminate er..].
    exists s1. split; [reflexivity|]. split; [eapply referenced_new; exact er|]. injection er as _ <-.
    split; [cbn; now rewrite app_nil_r|]. intros hn. exfalso. tauto.
  - unfold ebind at 1. unfold ebind at 1, e_data at 1. cbn [the_arena rst_arena]. rewrite h4.
    unfold ebind at 1. cbn [eopt]. change (eret r s) with (Done r s). cbv beta iota.
    destruct (note _ s) as [x s1| |] eqn:en; [|discriminate en..]. injection en as _ <-.
    unfold ebind at 1. match goal with |- context[eret r' ?q] => change (eret r' q) with (Done r' q) end. cbv beta iota.
    unfold ebind at 1. match goal with |- context[reference file r' node ?q] => destruct (reference file r' node q) as [y s2| |] eqn:er; [|discriminate er..] end.
    exists s2. split; [reflexivity|]. split; [eapply referenced_new; exact er|]. injection er as _ <-.
    split; [intros hn; exfalso; destruct hs as [_ hs]; specialize (hs hn); discriminate hs|]. intros _. eexists. split; [reflexivity|]. auto.
Qed.

(** A name at a place is checked once. *)
Definition stores (key : unique_range) (m : R (option N)) : Prop :=
  forall s x s', m s = Done x s' -> find unique_eqb key (r_cache s') = Some x /\ r_arena s' = r_arena s.
Lemma st_bind : forall key A (m : R A) f, kept m -> (forall x, stores key (f x)) -> stores key (ebind m f).
Proof.
  intros key A m f hm hf s x s' e. unfold ebind in e. destruct (m s) as [y s1| |] eqn:e1; try discriminate e.
  destruct (hm _ _ _ e1) as [h1 _]. destruct (hf _ _ _ _ e) as [h3 h4]. split; [exact h3|congruence].
Qed.
Lemma st_put : forall key v, stores key (ebind (cache_put key v) (fun _ => eret v)).
Proof.
  intros key v s x s' e. injection e as <- <-. cbn. split; [|reflexivity].
  apply (find_put_same _ Prop_Implementation.unique_spec).
Qed.
Ltac kp := repeat first
  [ assumption | apply kept_ret | apply kept_panic | apply kept_opt | apply kept_get | apply kept_note | apply kept_put
  | apply kept_reference | apply kept_data | apply kept_kids | apply kept_top
  | apply kept_bind; [|intros ?]
  | apply kept_fold; intros ? ? | apply kept_find; intros ?
  | match goal with |- kept (match ?x with _ => _ end) => destruct x end ].
Ltac sp := repeat first
  [ apply st_put
  | apply st_bind; [kp; apply kept_resolve|intros ?]
  | match goal with |- stores _ (match ?x with _ => _ end) => destruct x end ].
Theorem C61_once : forall fuel fuel' tr anchor reg reg' s o s', tref_is_builtin tr || tref_is_empty tr = false ->
  resolve_type_ref fuel tr anchor reg s = Done o s' ->
  resolve_type_ref (S fuel') tr anchor reg' s' = Done o s'.
Proof.
  intros [|fuel] fuel' tr anchor reg reg' s o s' hb e; [discriminate e|]. cbn [resolve_type_ref] in *. rewrite hb in *.
  unfold ebind at 1, e_top in e. cbn [the_arena rst_arena] in e. destruct (top (r_arena s) anchor) as [file|] eqn:e1; [|discriminate e].
  unfold ebind at 1, e_data at 1 in e. cbn [the_arena rst_arena] in e. destruct (data (r_arena s) file) as [fd|] eqn:e2; [|discriminate e].
  destruct (tref_root tr) as [[w|]|] eqn:e3; cbn [eopt] in e; unfold ebind at 1 in e; [| |discriminate e].
  2:{ discriminate e. }
  change (eret (Some w) s) with (Done (Some w) s) in e. cbv beta iota in e. cbn [eopt] in e. unfold ebind at 1 in e.
  change (eret w s) with (Done w s) in e. cbv beta iota in e.
  destruct (tref_range tr) as [r|] eqn:e4; cbn [eopt] in e; unfold ebind at 1 in e; [|discriminate e].
  change (eret r s) with (Done r s) in e. cbv beta iota in e. unfold ebind at 1, eget at 1 in e. cbv beta zeta iota in e.
  assert (H : find unique_eqb (file, r) (r_cache s') = Some o /\ r_arena s' = r_arena s).
  { destruct (find unique_eqb (file, r) (r_cache s)) as [v|] eqn:e5; [injection e as <- <-; auto|]. revert e.
    match goal with |- ?m s = _ -> _ => assert (stores (file, r) m) as hs end; [|apply hs].
    unfold unique_parent, parent_nodes, current_namespace. sp. }
  destruct H as [h1 h2]. unfold ebind at 1, e_top. cbn [the_arena rst_arena]. rewrite h2, e1.
  unfold ebind at 1, e_data at 1. cbn [the_arena rst_arena]. rewrite h2, e2. cbn [eopt].
  unfold ebind at 1. change (eret (Some w) s') with (Done (Some w) s'). cbv beta iota. cbn [eopt].
  unfold ebind at 1. change (eret w s') with (Done w s'). cbv beta iota.
  unfold ebind at 1. change (eret r s') with (Done r s'). cbv beta iota. unfold ebind at 1, eget at 1.
  rewrite h1. reflexivity.
Qed.

(** ** Members *)

(** No warning of that kind is added *)
Definition calmly (s s' : rst) : Prop :=
  exists l, r_diags s' = r_diags s ++ l /\ Forall (fun n => nt_message n <> mismatch_message) l.
Definition tame {A} (m : R A) : Prop := forall s x s', m s = Done x s' -> calmly s s'.
Lemma calmly_refl : forall s, calmly s s.
Proof. intros s. exists []. rewrite app_nil_r. auto. Qed.
Lemma calmly_trans : forall s t u, calmly s t -> calmly t u -> calmly s u.
Proof.
  intros s t u (l1 & e1 & f1) (l2 & e2 & f2). exists (l1 ++ l2). rewrite e2, e1, app_assoc. split; [reflexivity|].
  apply Forall_app. auto.
Qed.
Lemma t_ret : forall A (x : A), tame (eret x).
Proof. intros A x s y s' e. injection e as <- <-. apply calmly_refl. Qed.
Lemma t_panic : forall A, tame (@epanic rst A).
Proof. intros A s y s' e. discriminate e. Qed.
Lemma t_fuel : forall A, tame (@efuel rst A).
Proof. intros A s y s' e. discriminate e. Qed.
Lemma t_opt : forall A (o : option A), tame (eopt o).
Proof. intros A [x|]; [apply t_ret|apply t_panic]. Qed.
Lemma t_bind : forall A B (m : R A) (f : A -> R B), tame m -> (forall x, tame (f x)) -> tame (ebind m f).
Proof.
  intros A B m f hm hf s x s' e. unfold ebind in e. destruct (m s) as [y s1| |] eqn:e1; try discriminate e.
  eapply calmly_trans; [eapply hm, e1|eapply hf, e].
Qed.
Lemma t_get : forall A (f : rst -> A), tame (eget f).
Proof. intros A f s x s' e. injection e as <- <-. apply calmly_refl. Qed.
Lemma t_fold : forall A B (f : B -> A -> R B) l b, (forall x y, tame (f x y)) -> tame (efold f b l).
Proof. intros A B f l. induction l; intros b h; cbn [efold]; [apply t_ret|apply t_bind; auto]. Qed.
Lemma t_find : forall A B (f : A -> R (option B)) l, (forall x, tame (f x)) -> tame (efind f l).
Proof.
  intros A B f l h. induction l; cbn [efind]; [apply t_ret|]. apply t_bind; auto. intros [x|]; auto. apply t_ret.
Qed.
Lemma t_note : forall n, nt_message n <> mismatch_message -> tame (note n).
Proof. intros n h s x s' e. injection e as _ <-. exists [n]. auto. Qed.
Lemma t_reference : forall f r n, tame (reference f r n).
Proof. intros f r n s x s' e. injection e as _ <-. exists []. cbn. rewrite app_nil_r. auto. Qed.
Lemma t_put : forall k v, tame (cache_put k v).
Proof. intros k v s x s' e. injection e as _ <-. exists []. cbn. rewrite app_nil_r. auto. Qed.
Lemma t_data : forall i, tame (e_data i).
Proof. intros i s x s' e. unfold e_data in e. destruct (data _ _); [injection e as _ <-; apply calmly_refl|discriminate e]. Qed.
Lemma t_kids : forall i, tame (e_kids i).
Proof. intros i s x s' e. unfold e_kids in e. destruct (kids _ _); [injection e as _ <-; apply calmly_refl|discriminate e]. Qed.
Lemma t_top : forall i, tame (e_top i).
Proof. intros i s x s' e. unfold e_top in e. destruct (top _ _); [injection e as _ <-; apply calmly_refl|discriminate e]. Qed.
Ltac other := let h := fresh in intros h; cbn in h; repeat (injection h as h; try discriminate h); try discriminate h.
Ltac tl := repeat first
  [ assumption | apply t_ret | apply t_panic | apply t_fuel | apply t_opt | apply t_get | apply t_put
  | apply t_note; other
  | apply t_reference | apply t_data | apply t_kids | apply t_top
  | apply t_bind; [|intros ?]
  | apply t_fold; intros ? ? | apply t_find; intros ?
  | match goal with |- tame (match ?x with _ => _ end) => destruct x end
  | match goal with h : forall _, _ |- _ => apply h end ].
Lemma t_resolve : forall fuel tr ctx b, tame (resolve_type_ref fuel tr ctx b).
Proof.
  induction fuel as [|fuel IH]; intros tr ctx b; cbn [resolve_type_ref]; [apply t_fuel|].
  unfold unique_parent, parent_nodes, current_namespace. tl.
Qed.
Lemma t_resolve_all : forall fuel ctx l, tame (resolve_all (resolve_type_ref fuel) ctx l).
Proof. intros fuel ctx l. pose proof (t_resolve fuel). induction l; cbn [resolve_all]; tl. Qed.
Lemma t_all : forall fuel ctx, tame (get_all_symbols fuel ctx).
Proof.
  induction fuel as [|fuel IH]; intros ctx; cbn [get_all_symbols]; [apply t_fuel|].
  pose proof (t_resolve fuel) as HR. pose proof (t_resolve_all fuel) as HA.
  unfold get_imports, trait_symbols, inherited_symbols, parent_nodes, own_symbols. cbv zeta. tl.
  - match goal with |- tame (apply_insteadof _ _ _ ?a) => destruct a end; cbn [apply_insteadof]; tl.
  - match goal with |- tame (apply_as _ _ _ _ ?a) => destruct a end; cbn [apply_as]; tl.
Qed.
Lemma t_type : forall fuel f m c l, tame (member_type fuel f m c l).
Proof.
  intros fuel f m c l. pose proof (t_resolve fuel) as HR. induction l; cbn [member_type]; [apply t_ret|].
  unfold unique_parent, parent_nodes. tl.
Qed.

Lemma calmly_in : forall s s' n, calmly s s' -> In n (r_diags s) -> In n (r_diags s').
Proof. intros s s' n (l & -> & _) h. apply in_app_iff. auto. Qed.
Lemma warned_more : forall s s' m, (exists l, r_diags s' = r_diags s ++ l) -> warned s m -> warned s' m.
Proof.
  intros s s' m (l & e) (n & r & h & h2). exists n, r. rewrite e. split; [apply in_app_iff; auto|exact h2].
Qed.

(** A step over a member *)
Definition spelled_as (m : Node) (p : N * Symbol) : Prop := forall t name, written m t name -> name = sym_name (snd p).
Lemma written_once : forall m t name t' name', written m t name -> written m t' name' -> name = name'.
Proof.
  intros m t name t' name' h1 h2. apply written_link in h1 as [h1 _]. apply written_link in h2 as [h2 _]. congruence.
Qed.
Lemma step_spelling : forall s0 fuel file fname c v m p rest s x s', reads s0 c v m p -> v <> VNone -> near s0 s ->
  follow_chain fuel file fname v c (m :: rest) s = Done x s' ->
  exists s1, near s0 s1 /\ (exists l, r_diags s1 = r_diags s ++ l) /\
    (spelled_as m p -> calmly s s1) /\ (~ spelled_as m p -> warned s1 m) /\
    (match y_kind (snd p) with
     | KProperty | KMethod =>
         elet st <- member_type fuel fname m c (y_types (snd p)) in
         match st with
         | NextLink n => follow_chain fuel file fname v n rest
         | GiveUp => eret None
         end
     | _ => follow_chain fuel file fname v (fst p) rest
     end) s1 = Done x s'.
Proof.
  intros s0 fuel file fname c v m [i d] rest s x s' (t & name & hw & ho & hu) hv hn e. cbn [fst snd] in *.
  destruct (written_link _ _ _ hw) as (hl & hm & hr). cbn [follow_chain] in e. rewrite hl in e. cbn [eopt] in e.
  unfold ebind at 1, eret at 1 in e. unfold ebind at 1 in e.
  destruct (get_all_symbols fuel c s) as [ms s1| |] eqn:e1; try discriminate e.
  destruct (near_has _ _ _ _ _ _ _ _ _ ho hn e1) as [(al & hf & q1 & q2 & q3) hn1]. rewrite hf, q1, q2, q3 in e.
  unfold ebind at 1, e_data in e. cbn [the_arena rst_arena] in e.
  assert (hd : data (r_arena s1) i = Some d).
  { rewrite (near_arena _ _ hn1). destruct ho as (n & _ & (l1 & l2 & _ & h & _) & _). exact h. }
  rewrite hd, (visible_ge _ _ hu hv) in e. unfold ebind at 1 in e.
  match type of e with match ?m s1 with _ => _ end = _ => destruct (m s1) as [u s2| |] eqn:e2; try discriminate e end.
  assert (h2 : near s0 s2 /\ (exists l, r_diags s2 = r_diags s1 ++ l) /\ (spelled_as m (i, d) -> calmly s1 s2) /\ (~ spelled_as m (i, d) -> warned s2 m)).
  { destruct (str_eqb_spec (sym_name d) name) as [en|en].
    - injection e2 as _ <-. split; [exact hn1|]. split; [exists []; now rewrite app_nil_r|]. split; [intros _; apply calmly_refl|].
      intros hx. exfalso. apply hx. intros t' name' hw'. rewrite <- (written_once _ _ _ _ _ hw hw'). now symmetry.
    - unfold ebind in e2. destruct (node_range m) as [r|] eqn:er; [|discriminate e2]. cbn [eopt] in e2. unfold eret in e2.
      split; [injection e2 as _ <-; eapply near_like; [exact hn1|repeat split]|]. injection e2 as _ <-. cbn.
      split; [eexists; reflexivity|]. split.
      + intros hx. exfalso. apply en. symmetry. exact (hx _ _ hw).
      + intros _. eexists _, r. split; [apply in_app_iff; right; left; reflexivity|]. split; [exact er|]. split; [split; reflexivity|reflexivity]. }
  destruct h2 as (hn2 & hx2 & hc2 & hw2). unfold ebind at 1 in e.
  assert (e3 : exists u3 s3, reference_local file t i s2 = Done u3 s3 /\
    (match y_kind d with
     | KProperty | KMethod =>
         elet st <- member_type fuel fname m c (y_types d) in
         match st with
         | NextLink n => follow_chain fuel file fname v n rest
         | GiveUp => eret None
         end
     | _ => follow_chain fuel file fname v i rest
     end) s3 = Done x s').
  { destruct hm as [-> | ->]; destruct (reference_local file t i s2) as [u3 s3| |]; try discriminate e; eauto. }
  destruct e3 as (u3 & s3 & e3 & e4). exists s3. destruct (like_local _ _ _ _ _ _ e3) as [hl3 (r & hr3 & hr4)].
  assert (hd3 : r_diags s3 = r_diags s2).
  { unfold reference_local, ebind in e3. rewrite hr3 in e3. cbn in e3. injection e3 as _ <-. reflexivity. }
  assert (hc1 : calmly s s1) by (eapply t_all, e1).
  split; [eapply near_like; eauto|]. split; [|split; [|split; [|exact e4]]].
  - destruct hc1 as (l1 & q & _), hx2 as (l2 & q'). exists (l1 ++ l2). rewrite hd3, q', q, app_assoc. reflexivity.
  - intros hs. eapply calmly_trans; [exact hc1|]. specialize (hc2 hs). destruct hc2 as (l & q & f). exists l. rewrite hd3. auto.
  - intros hs. eapply warned_more; [|exact (hw2 hs)]. exists []. rewrite hd3, app_nil_r. reflexivity.
Qed.
Lemma steps_spelling : forall s0 fuel file fname v c members ms z, Path s0 v c members ms z -> v <> VNone ->
  forall rest s x s', near s0 s ->
  follow_chain fuel file fname v c (members ++ rest) s = Done x s' ->
  exists s1, near s0 s1 /\ (exists l, r_diags s1 = r_diags s ++ l) /\
    (Forall2 spelled_as members ms -> calmly s s1) /\
    Forall2 (fun m p => ~ spelled_as m p -> warned s1 m) members ms /\
    follow_chain fuel file fname v z rest s1 = Done x s'.
Proof.
  intros s0 fuel file fname v c members ms z H hv. induction H as [c|c m p n members ms z hu hl _ IH]; intros rest s x s' hn e.
  - exists s. split; [exact hn|]. split; [exists []; now rewrite app_nil_r|]. split; [intros _; apply calmly_refl|]. auto.
  - cbn [app] in e.
    destruct (step_spelling _ _ _ _ _ _ _ _ _ _ _ _ hu hv hn e) as (s1 & hn1 & ha1 & hc1 & hw1 & e1).
    assert (e2 : exists s2, near s0 s2 /\ calmly s1 s2 /\ follow_chain fuel file fname v n (members ++ rest) s2 = Done x s').
    { assert (e3 : (elet st <- member_type fuel fname m c (y_types (snd p)) in
         match st with NextLink n => follow_chain fuel file fname v n (members ++ rest) | GiveUp => eret None end) s1 = Done x s')
        by (destruct (leads_kind _ _ _ _ hl) as [q|q]; rewrite q in e1; exact e1).
      unfold ebind in e3. destruct (member_type fuel fname m c (y_types (snd p)) s1) as [st s2| |] eqn:em; try discriminate e3.
      destruct hu as (t & name & _ & hh & _). destruct (leads_next _ _ _ _ _ _ _ _ _ _ _ _ hl hh hn1 em) as (-> & hn2 & ha2).
      exists s2. split; [exact hn2|]. split; [eapply t_type; exact em|exact e3]. }
    destruct e2 as (s2 & hn2 & ha2 & e2).
    destruct (IH rest s2 x s' hn2 e2) as (s3 & hn3 & ha3 & hc3 & hF & e3).
    exists s3. split; [exact hn3|]. split.
    { destruct ha1 as (l1 & q1), ha2 as (l2 & q2 & _), ha3 as (l3 & q3). exists (l1 ++ l2 ++ l3).
      rewrite q3, q2, q1, <- !app_assoc. reflexivity. }
    split; [|split; [|exact e3]].
    + intros hs. inversion hs; subst. eapply calmly_trans; [apply hc1; assumption|]. eapply calmly_trans; [exact ha2|]. apply hc3. assumption.
    + constructor; [|exact hF]. intros hs. eapply warned_more; [|exact (hw1 hs)].
      destruct ha2 as (l2 & q2 & _), ha3 as (l3 & q3). exists (l2 ++ l3). rewrite q3, q2, app_assoc. reflexivity.
Qed.
Lemma t_local : forall f t n, tame (reference_local f t n).
Proof. intros f t n. unfold reference_local. tl. Qed.
Lemma t_variable : forall fuel n l, tame (variable_type fuel n l).
Proof. intros fuel n l. pose proof (t_resolve fuel). induction l; cbn [variable_type]; tl. Qed.
Lemma t_obtain : forall t, tame (get_local t).
Proof. intros t s x s' e. unfold get_local in e. injection e as _ <-. apply calmly_refl. Qed.
Lemma receiver_calm : forall s e c b, Receiver s e c b -> forall fuel again file n0 chain,
  tame (chain_root fuel again file n0 e chain).
Proof.
  induction 1 as [t c ht hl hc|t c ht hc|t c ho hc|t c ho hc|e c b _ IH];
    intros [|fuel] again file n0 chain; try apply t_fuel; cbn [chain_root]; try apply IH;
    pose proof (t_resolve fuel); pose proof t_local; pose proof (t_variable fuel); pose proof t_obtain;
    unfold unique_parent, parent_nodes; tl.
Qed.
Lemma start_calm : forall s e c v s0, Start s e c v s0 -> forall fuel again file n0 chain,
  tame (chain_root fuel again file n0 e chain).
Proof.
  induction 1 as [e c inside hr|t c p ht hc hp|t fuel0 c s0 ht hl hr|tr fuel0 c s0 hl hr|t e c v s0 _ _ IH|e op cp c v s0 _ IH|e c v s0 _ IH];
    intros [|fuel] again file n0 chain; try apply t_fuel; cbn [chain_root]; try apply IH.
  - apply (receiver_calm _ _ _ _ hr (S fuel)).
  - pose proof (t_resolve fuel). unfold unique_parent, parent_nodes. tl.
  - pose proof (t_resolve fuel). unfold unique_parent, parent_nodes. tl.
  - pose proof (t_resolve fuel). unfold unique_parent, parent_nodes. tl.
Qed.
Lemma start_calmly : forall fuel file node s x s' e l c v s0, Chain node e l -> Start s e c v s0 ->
  resolve_member_type fuel file node s = Done x s' ->
  exists fuel' fname s1, near s0 s1 /\ calmly s s1 /\ follow_chain fuel' file fname v c l s1 = Done x s'.
Proof.
  intros [|fuel] file node s x s' e l c v s0 hc hr h; [discriminate h|]. cbn [resolve_member_type] in h. unfold ebind at 1 in h.
  destruct (chain_root fuel (resolve_member_type fuel file) file node node [] s) as [y s1| |] eqn:e1; try discriminate h.
  destruct (chain_flat _ _ _ hc _ _ _ _ _ _ _ _ e1) as (f1 & e2).
  pose proof (start_calm _ _ _ _ _ hr _ _ _ _ _ _ _ _ e2) as hcalm.
  destruct (start_root _ _ _ _ _ hr _ _ _ _ _ _ _ e2) as (-> & hl & ha). rewrite app_nil_r in h.
  unfold ebind, eget, e_top, e_data in h. destruct (top (the_arena s1) (r_container s1)) as [f|]; [|discriminate h].
  destruct (data (the_arena s1) f) as [fd|]; [|discriminate h].
  exists fuel, (sym_name fd), s1. auto.
Qed.

(** The members of a chain: a warning at every one that is not written as its
    declaration, and none if all are.

    Missing for the whole of C61: members that are declared several times in the
    ancestry, chains through array elements and results of functions, arguments
    of calls, and functions and constants, whose names are never checked. *)
Theorem C61_member_partial : forall fuel file node s x s' e c v s0 members ms z m p,
  Chain node e (members ++ [m]) -> Start s e c v s0 ->
  Path s0 v c members ms z -> reads s0 z v m p ->
  resolve_member_type fuel file node s = Done x s' ->
  Forall2 (fun m p => ~ spelled_as m p -> warned s' m) (members ++ [m]) (ms ++ [p]) /\
  (Forall2 spelled_as (members ++ [m]) (ms ++ [p]) ->
   exists l, says s s' l /\ Forall (fun n => nt_message n <> mismatch_message) l).
Proof.
  intros fuel file node s x s' e c v s0 members ms z m p hc hr hF hu h. pose proof (start_visible _ _ _ _ _ hr) as hv.
  destruct (start_calmly _ _ _ _ _ _ _ _ _ _ _ hc hr h) as (f1 & fname & s1 & hn1 & ha1 & e1).
  destruct (steps_spelling _ _ _ _ _ _ _ _ _ hF hv _ _ _ _ hn1 e1) as (s2 & hn2 & ha2 & hc2 & hF2 & e2).
  destruct (step_spelling _ _ _ _ _ _ _ _ _ _ _ _ hu hv hn2 e2) as (s3 & hn3 & ha3 & hc3 & hw3 & e3).
  assert (ha4 : calmly s3 s').
  { destruct (y_kind (snd p)); try (injection e3 as _ <-; apply calmly_refl); revert e3;
      (apply t_bind; [apply t_type|]; intros [n|]; apply t_ret). }
  split.
  - apply Forall2_app.
    + assert (hl : exists l, r_diags s' = r_diags s2 ++ l).
      { destruct ha3 as (l3 & q3), ha4 as (l4 & q4 & _). exists (l3 ++ l4). now rewrite q4, q3, app_assoc. }
      clear - hF2 hl. induction hF2 as [|m0 p0 ? ? h0]; constructor; auto.
      intros hs. eapply warned_more; [exact hl|]. exact (h0 hs).
    + constructor; [|constructor]. intros hs. eapply warned_more; [|exact (hw3 hs)].
      destruct ha4 as (l4 & q4 & _). exists l4. exact q4.
  - intros hs. apply Forall2_app_inv_l in hs as (l1 & l2 & h1 & h2 & hl).
    inversion h2 as [|? p2 ? ? h3 h4]; subst. inversion h4; subst. apply app_inj_tail in hl as [<- <-].
    change (calmly s s'). eapply calmly_trans; [exact ha1|]. eapply calmly_trans; [apply hc2; assumption|].
    eapply calmly_trans; [apply hc3; assumption|exact ha4].
Qed.
End Spelling.

(** * Cases *)

Local Existing Instance ascii_runtime | 9.
Local Existing Instance plain_hashing | 9.

(** [class D extends c] where [c] is an import of [A\B] is spelled as declared. *)
Example C61_type_case : exists d s', asks state30 name30 6 (Written false (lit "c") []) [lit "A"; lit "B"] /\
  findS (to_lowercase (joined [lit "A"; lit "B"])) (r_global state30) = Some 2 /\ data (r_arena state30) 2 = Some d /\
  spelled d (joined [lit "A"; lit "B"]) /\
  resolve_type_ref 5 name30 6 true state30 = Done (Some 2) s' /\ says state30 s' [].
Proof.
  destruct C30_case as (_ & h1 & h2 & _). eexists _, _. split; [exact h1|]. split; [exact h2|].
  split; [vm_compute; reflexivity|]. split; [left; vm_compute; reflexivity|]. split; vm_compute; reflexivity.
Qed.
(** [class D extends b] next to [class B] is not. *)
Definition case61 : bst := opened "<?php namespace A; class B {}" "<?php namespace A; class D extends b {}".
Definition state61 : rst := resolver_new (b_arena case61) (b_global case61) 4.
Definition name61 : TypeRef :=
  match data (b_arena case61) 6 with
  | Some d => match y_inherits d with Some (r :: _) => sr_type r | _ => no_prefix end
  | None => no_prefix
  end.
Example C61_type_warned_case : exists d n s', asks state61 name61 6 (Written false (lit "b") []) [lit "A"; lit "b"] /\
  findS (to_lowercase (joined [lit "A"; lit "b"])) (r_global state61) = Some 2 /\ data (r_arena state61) 2 = Some d /\
  ~ spelled d (joined [lit "A"; lit "b"]) /\
  resolve_type_ref 5 name61 6 true state61 = Done (Some 2) s' /\ says state61 s' [n].
Proof.
  assert (r : reachable case61) by apply state_after_reachable.
  eexists _, _, _. split.
  { constructor.
    - change (r_arena state61) with (b_arena case61). apply (wi_wf _ (reachable_winv _ r)).
    - vm_compute. apply spells_relative; [split; reflexivity|constructor].
    - vm_compute. intros [e|[e|[e|[]]]]; discriminate.
    - exists 4. eexists. eexists. eexists. exists [], [lit "A"].
      split; [vm_compute; reflexivity|]. split; [vm_compute; reflexivity|]. split; [vm_compute; reflexivity|].
      split; [vm_compute; reflexivity|]. split; [vm_compute; reflexivity|].
      split; [vm_compute; constructor|]. split; [constructor|].
      split; [apply placed_own; vm_compute; reflexivity|].
      split; [repeat constructor; discriminate|]. change [lit "A"; lit "b"] with ([lit "A"] ++ lit "b" :: []). apply means_local. intros al f []. }
  split; [vm_compute; reflexivity|]. split; [vm_compute; reflexivity|].
  split; [intros [h|h]; vm_compute in h; discriminate h|]. split; vm_compute; reflexivity.
Qed.

(** [self] in the text of a file, outside and inside of the class [D] *)
Definition self61 (w : string) : TypeRef := tref_one [mkToken 3 7 TIdentifier (Some (lit w)) (Some 9)].
Example C61_outside_case : exists r n s',
  relative (self61 "self") (lit "self") /\ first_time state61 (self61 "self") 6 4 r /\ r_class state61 = None /\
  resolve_type_ref 5 (self61 "self") 6 true state61 = Done None s' /\ says state61 s' [n].
Proof.
  eexists _, _, _. split; [split; vm_compute; reflexivity|].
  split; [split; [vm_compute; reflexivity|]; split; [vm_compute; discriminate|]; split; vm_compute; reflexivity|].
  split; [vm_compute; reflexivity|]. split; vm_compute; reflexivity.
Qed.
Example C61_inside_case : exists r s',
  relative (self61 "static") (lit "static") /\
  first_time (mkRst (b_arena case61) (b_global case61) [[]] (Some 6) 4 [] [] []) (self61 "static") 6 4 r /\
  resolve_type_ref 5 (self61 "static") 6 true (mkRst (b_arena case61) (b_global case61) [[]] (Some 6) 4 [] [] []) = Done (Some 6) s'.
Proof.
  eexists _, _. split; [split; vm_compute; reflexivity|].
  split; [split; [vm_compute; reflexivity|]; split; [vm_compute; discriminate|]; split; vm_compute; reflexivity|].
  vm_compute. reflexivity.
Qed.

(** [parent] in [D], whose parent is written as [b] instead of [B] *)
Example C61_parent_case : exists r s' me e n,
  relative (self61 "parent") (lit "parent") /\
  first_time (mkRst (b_arena case61) (b_global case61) [[]] (Some 6) 4 [] [] []) (self61 "parent") 6 4 r /\
  data (b_arena case61) 6 = Some me /\ y_inherits me = Some [e] /\ tref_root (sr_type e) <> Some (Some (lit "parent")) /\
  resolve_type_ref 5 (self61 "parent") 6 true (mkRst (b_arena case61) (b_global case61) [[]] (Some 6) 4 [] [] []) = Done (Some 2) s' /\
  r_diags s' = [n].
Proof.
  eexists _, _, _, _, _. split; [split; vm_compute; reflexivity|].
  split; [split; [vm_compute; reflexivity|]; split; [vm_compute; discriminate|]; split; vm_compute; reflexivity|].
  split; [vm_compute; reflexivity|]. split; [vm_compute; reflexivity|]. split; [vm_compute; discriminate|].
  split; vm_compute; reflexivity.
Qed.

(** [use A\b;] *)
Example C61_import_case : exists u0 u decl al ty name d fd r r' n s',
  syntax 60 (lit "<?php use A\b;") = Some [NUseStatement u0 [NUseDeclaration u decl al ty]] /\
  node_name decl = Some name /\ findS (to_lowercase name) (r_global state61) = Some 2 /\
  data (r_arena state61) 2 = Some d /\ data (r_arena state61) 4 = Some fd /\
  node_range decl = Some r /\ node_range (NUseDeclaration u decl al ty) = Some r' /\ ~ spelled d name /\
  n_visit 5 4 (NUseDeclaration u decl al ty) 4 state61 = Done None s' /\ says state61 s' [n].
Proof.
  eexists _, _, _, _, _, _, _, _, _, _, _, _. split; [vm_compute; reflexivity|].
  split; [vm_compute; reflexivity|]. split; [vm_compute; reflexivity|]. split; [vm_compute; reflexivity|].
  split; [vm_compute; reflexivity|]. split; [vm_compute; reflexivity|]. split; [vm_compute; reflexivity|].
  split; [intros [h|h]; vm_compute in h; discriminate h|]. split; vm_compute; reflexivity.
Qed.

(** [(new B)->C()->d()->Q]: the first and the last member are misspelled. *)
Example C61_member_case : exists node e m1 m2 m3 x s',
  syntax 60 (lit "<?php (new B)->C()->d()->Q;") = Some [NExpressionStatement node] /\
  Chain node e ([m1; m2] ++ [m3]) /\ Start (stateC None) e 6 VPublic (afterB None) /\
  Path (afterB None) VPublic 6 [m1; m2] [(8, symbolC 8); (12, symbolC 12)] 6 /\
  reads (afterB None) 6 VPublic m3 (5, symbolC 5) /\
  resolve_member_type 60 1 node (stateC None) = Done x s' /\
  ~ spelled_as m1 (8, symbolC 8) /\ spelled_as m2 (12, symbolC 12) /\ ~ spelled_as m3 (5, symbolC 5) /\
  List.length (r_diags s') = 2%nat.
Proof.
  eexists _, _, _, _, _, _, _. split; [vm_compute; reflexivity|]. split; [apply parts_ok; reflexivity|]. split; [newB|].
  split.
  { eapply Path_member; [readC (goodB None) 6; vm_compute; auto|apply (leadsC None); [apply goodB|cbn; auto]|].
    eapply Path_member; [readC (goodB None) 9; vm_compute; auto|apply (leadsC None); [apply goodB|cbn; auto]|]. apply Path_none. }
  split; [readC (goodB None) 2; vm_compute; auto|]. split; [vm_compute; reflexivity|].
  split; [|split; [|split; [|vm_compute; reflexivity]]].
  - intros h. enough (q : lit "C" = lit "c") by discriminate q. eapply h. apply written_name; reflexivity || discriminate.
  - intros t name h. eapply written_once; [exact h|]. apply written_name; reflexivity || discriminate.
  - intros h. enough (q : lit "Q" = lit "q") by discriminate q. eapply h. apply written_name; reflexivity || discriminate.
Qed.

Print Assumptions C61_type_partial.
Print Assumptions C61_outside.
Print Assumptions C61_inside.
Print Assumptions C61_parent.
Print Assumptions C61_import.
Print Assumptions C61_once.
Print Assumptions C61_member_partial.
