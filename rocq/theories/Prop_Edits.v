(** Properties of the server: C23 and C27 to C29, what a notification does.
    The vocabulary is in SpecNames.v and SpecServer.v. *)

From Coq Require Import Permutation.
From Verif Require Import Base Token Scanner Node DocBlock Parser Assoc AssocFacts Arena ArenaFacts
  Symbol EnvMonad EnvFacts Workspace WorkspaceFacts WorkspaceSim Resolver SpecNames ResolverFacts
  Backend BackendFacts SpecServer ServerInv IndexFacts Prop_Server.

Local Notation findS := (find str_eqb).
Local Existing Instance ascii_runtime | 9.
Local Existing Instance plain_hashing | 9.
Local Open Scope string_scope.
Local Open Scope N_scope.
Local Open Scope list_scope.

(** * C23: the latest content *)

Section C23.
Context {RT : Runtime} {HH : Hashing}.

(** Indexing (backend/mod.rs:406-456) a syntax tree in any state the server can
    be in leaves exactly the symbols that indexing it into an empty workspace
    leaves. *)
Theorem C23_reindex : forall s s' fuel path nodes range, reachable s ->
  collect_symbols fuel path nodes range s = Done tt s' ->
  exists s0 f f0, collect_symbols fuel path nodes range backend_new = Done tt s0 /\
    findS path (b_files s') = Some f /\ findS path (b_files s0) = Some f0 /\
    same_symbols (b_arena s0) f0 (b_arena s') f.
Proof.
  intros s s' fuel path nodes range r e. apply reachable_winv in r.
  eapply collect_same; [apply (wi_wf _ r)| |exact e].
  intros f h. apply (wi_files _ r _ _ h).
Qed.

(** As seen from outside: a file that is not open changes on the disk. *)
Theorem C23_latest_content : forall s s' fuel disk order path text, reachable s ->
  findS path (b_open s) = None -> disk path = Some text -> syntax fuel text <> None ->
  serve fuel disk order (EvWatched [path]) s = Done tt s' ->
  exists s0 f f0, serve fuel disk order (EvWatched [path]) backend_new = Done tt s0 /\
    findS path (b_files s') = Some f /\ findS path (b_files s0) = Some f0 /\
    same_symbols (b_arena s0) f0 (b_arena s') f.
Proof.
  intros s s' fuel disk order path text r no ed ne e. cbn [serve did_change_watched] in *.
  unfold ebind at 1 in e. unfold eget at 1 in e. rewrite no, ed in e. cbn [eopt] in e.
  unfold ebind at 1 in e. unfold eret at 1 in e.
  unfold ebind at 1. unfold eget at 1. cbn [b_open backend_new find]. rewrite ed. cbn [eopt].
  unfold ebind at 1. unfold eret at 1.
  unfold ebind at 1 in e. unfold ebind at 1.
  assert (same : forall (t : bst), source_to_ast fuel text t =
    match source_to_ast fuel text backend_new with Done x _ => Done x t | Panic => Panic | Fuel => Fuel end).
  { intros t. unfold source_to_ast. destruct (scan_state text); try reflexivity.
    destruct (ast fuel _) as [[]| | |]; reflexivity. }
  rewrite same in e. destruct (source_to_ast fuel text backend_new) as [x t| |] eqn:es; try discriminate.
  apply source_spec in es as [-> hx]. destruct x as [[[nodes range] errors]|]; [|contradiction].
  take e as e1. injection e as <-. take e1 as ec. destruct x0.
  destruct (C23_reindex _ _ _ _ _ _ r ec) as (s0 & f & f0 & c1 & c2 & c3 & c4).
  take e1 as e0. apply eopt_done in e0 as [edg ->]. take e1 as e0. injection e0 as <- <-. injection e1 as _ <-.
  eexists. exists f, f0. split.
  - unfold ebind at 1. unfold ebind at 1. rewrite c1. rewrite edg. cbn. reflexivity.
  - cbn. auto.
Qed.

End C23.

(** A file is indexed among others and changes on the disk. *)
Definition disk23 : str -> option str := disk2 text21a text21b.
Definition disk23b : str -> option str := disk2 text21c text21b.
Example C23_case :
  let s := state_after [(disk23, EvIndex [pA; pB]); (disk23, EvOpen pB [])] in
  reachable s /\ findS pA (b_open s) = None /\ syntax 400 (lit text21c) <> None /\
  exists s', serve 400 disk23b (fun m => m) (EvWatched [pA]) s = Done tt s' /\
    findS pA (b_files s) <> None /\ findS pA (b_files s') <> findS pA (b_files s).
Proof.
  cbv zeta. split; [apply state_after_reachable|].
  split; [vm_compute; reflexivity|]. split; [vm_compute; discriminate|].
  eexists. split; [vm_compute; reflexivity|]. split; vm_compute; discriminate.
Qed.

Print Assumptions C23_reindex.
Print Assumptions C23_latest_content.

(** * C27: opening a file *)

Section C27.
Context {RT : Runtime} {HH : Hashing}.

(** The text sent by the editor has no influence. *)
Theorem C27_text_ignored_refuted : forall fuel disk path text text',
  did_open fuel disk path text = did_open fuel disk path text'.
Proof. reflexivity. Qed.

(** If the text of the editor is that of the file system and the file is not
    open yet, then the text is remembered and its syntax tree is the one that
    is kept.  What is missing for the full statement: other texts, and files
    that are open already. *)
Theorem C27_open_partial : forall s s' fuel disk order path text,
  disk path = Some text -> findS path (b_open s) = None ->
  serve fuel disk order (EvOpen path text) s = Done tt s' ->
  findS path (b_latest s') = Some text /\
  opt_map fst (findS path (b_open s')) = syntax fuel text.
Proof.
  intros s s' fuel disk order path text ed no e. cbn [serve] in e. unfold did_open in e.
  step e. apply eopt_done in e1 as [ed' ->]. assert (x = text) by congruence. subst x.
  step e. injection e1 as <- <-. step e. injection e1 as _ <-. step e. injection e1 as <- <-.
  cbn [b_open] in e. rewrite no in e. set (s1 := mkBst _ _ _ _ _ _ _) in e.
  assert (l1 : findS path (b_latest s1) = Some text) by (apply find_put_same, str_eqb_spec).
  step e. step e1. apply source_spec in e0 as [-> hx].
  destruct x1 as [[[nodes range] errors]|].
  - step e1. apply eopt_done in e0 as [_ ->]. step e1. injection e0 as <- <-.
    step e1. injection e0 as _ <-. step e1. injection e0 as _ <-. injection e1 as <- <-.
    take e as e0. injection e0 as <- <-. cbn [b_open] in e.
    rewrite find_put_same in e by apply str_eqb_spec.
    apply references_frame in e as (_ & _ & -> & ->). split; [exact l1|]. cbn [b_open].
    rewrite find_put_same by apply str_eqb_spec. cbn. auto.
  - injection e1 as <- <-. injection e as <-. split; auto. cbn [b_open s1]. rewrite no. cbn. auto.
Qed.

End C27.

(** The editor shows unsaved changes. *)
Theorem C27_refuted : exists s s' fuel disk order path text, reachable s /\
  serve fuel disk order (EvOpen path text) s = Done tt s' /\
  findS path (b_latest s') <> Some text /\
  opt_map fst (findS path (b_open s')) <> syntax fuel text.
Proof.
  exists (state_after [(disk23, EvIndex [pA; pB])]),
    (state_after [(disk23, EvIndex [pA; pB]); (disk23, EvOpen pA (lit text21c))]),
    400%nat, disk23, (fun m => m), pA, (lit text21c).
  split; [apply state_after_reachable|]. split; [vm_compute; reflexivity|].
  split; vm_compute; discriminate.
Qed.

Example C27_case : exists s',
  serve 400 disk23 (fun m => m) (EvOpen pA (lit text21a)) (state_after [(disk23, EvIndex [pA; pB])]) = Done tt s' /\
  disk23 pA = Some (lit text21a) /\ findS pA (b_open (state_after [(disk23, EvIndex [pA; pB])])) = None /\
  findS pA (b_open s') <> None.
Proof.
  eexists. split; [vm_compute; reflexivity|]. split; [reflexivity|].
  split; [vm_compute; reflexivity|]. vm_compute. discriminate.
Qed.

Print Assumptions C27_open_partial.
Print Assumptions C27_text_ignored_refuted.
Print Assumptions C27_refuted.

(** * C29: closing a file *)

Section C29.
Context {RT : Runtime} {HH : Hashing}.

(** After a file has been closed nothing of it is open and everything else is
    as before; this always succeeds. *)
Theorem C29_close : forall s fuel disk order path,
  exists s', serve fuel disk order (EvClose path) s = Done tt s' /\
  findS path (b_latest s') = None /\ findS path (b_open s') = None /\ findS path (b_refs s') = None /\
  (forall other, other <> path ->
     findS other (b_latest s') = findS other (b_latest s) /\
     findS other (b_open s') = findS other (b_open s) /\
     findS other (b_refs s') = findS other (b_refs s)) /\
  b_arena s' = b_arena s /\ b_files s' = b_files s /\ b_global s' = b_global s /\ b_diags s' = b_diags s /\
  serve fuel disk order (EvClose path) s' = Done tt s'.
Proof.
  intros s fuel disk order path. cbn [serve].
  assert (e : forall t, did_close path t = Done tt (mkBst (b_arena t) (b_files t) (b_global t) (b_diags t)
    (del str_eqb path (b_refs t)) (del str_eqb path (b_open t)) (del str_eqb path (b_latest t)))) by reflexivity.
  rewrite e. eexists. split; [reflexivity|]. rewrite e.
  cbn [b_arena b_files b_global b_diags b_refs b_open b_latest].
  assert (g : forall A (m : list (str * A)), findS path (del str_eqb path m) = None).
  { intros. rewrite find_del by apply str_eqb_spec. destruct (str_eqb_spec path path); congruence. }
  assert (h : forall A other (m : list (str * A)), other <> path -> findS other (del str_eqb path m) = findS other m).
  { intros. rewrite find_del by apply str_eqb_spec. destruct (str_eqb_spec path other); congruence. }
  assert (i : forall A (m : list (str * A)), del str_eqb path (del str_eqb path m) = del str_eqb path m).
  { intros A m. unfold del. induction m as [|[k v] m IH]; cbn; auto.
    destruct (negb _) eqn:e'; cbn; rewrite ?e'; rewrite IH; auto. }
  rewrite !i. repeat split; auto.
Qed.

End C29.

(** An open file is closed. *)
Example C29_case :
  let s := state_after [(disk23, EvIndex [pA; pB]); (disk23, EvOpen pA []); (disk23, EvOpen pB [])] in
  findS pA (b_latest s) <> None /\ findS pA (b_open s) <> None /\ findS pA (b_refs s) <> None /\
  findS pB (b_refs s) <> None.
Proof. cbv zeta. repeat split; vm_compute; discriminate. Qed.

Print Assumptions C29_close.
