(** Properties C53 and C54: which files are walked over, and what the checks of
    the command line look at. *)

From Verif Require Import Base Token Scanner SpecScanner ScannerFacts Node Parser Assoc Arena Symbol EnvMonad EnvFacts
  Workspace Resolver SpecNames Backend BackendFacts Suggester SpecServer Files Prop_Scanner.

Local Existing Instance ascii_runtime | 9.
Local Existing Instance plain_hashing | 9.
Local Open Scope string_scope.
Local Open Scope N_scope.
Local Open Scope list_scope.

(** * Specification *)

(** The directory holds a file at this path, relative to it. *)
Inductive lies : listing -> path -> Prop :=
| lies_here : forall name rest, lies (More (File name) rest) [name]
| lies_below : forall name contents rest rel, lies contents rel ->
    lies (More (Folder name contents) rest) (name :: rel)
| lies_behind : forall e rest rel, lies rest rel -> lies (More e rest) rel
| lies_past : forall rest rel, lies rest rel -> lies (Broken rest) rel.

(** Everything in it can be read. *)
Inductive readable : listing -> Prop :=
| ok_empty : readable Empty
| ok_file : forall name rest, readable rest -> readable (More (File name) rest)
| ok_folder : forall name contents rest, readable contents -> readable rest ->
    readable (More (Folder name contents) rest).

(** The name of the file is [something.php]. *)
Definition php_file (rel : path) : Prop :=
  exists dirs stem, stem <> [] /\ rel = dirs ++ [stem ++ lit ".php"].

(** The path ends with the components of an ignored one. *)
Definition unwanted (ignored : list path) (p : path) : Prop :=
  exists s front, In s ignored /\ p = front ++ s.

(** Neither the file nor a directory on the way to it is unwanted. *)
Definition wanted (ignored : list path) (dir rel : path) : Prop :=
  forall front rest, rel = front ++ rest -> front <> [] -> ~ unwanted ignored (dir ++ front).

(** * Lemmas *)

Lemma go_prefix : forall (p s : path),
  (fix go (p s : path) : bool :=
     match s, p with
     | [], _ => true
     | _ :: _, [] => false
     | b :: s, a :: p => str_eqb a b && go p s
     end) p s = true <-> exists t, p = s ++ t.
Proof.
  intros p s. revert p. induction s as [|b s IH]; intros p.
  - destruct p; (split; [intros _; eexists; reflexivity|reflexivity]).
  - destruct p as [|a p].
    + split; [discriminate|]. intros (t & e). discriminate e.
    + rewrite andb_true_iff, IH. split.
      * intros (h & t & ->). apply str_eqb_eq in h. subst. exists t. reflexivity.
      * intros (t & e). injection e as -> ->. split; [now apply str_eqb_eq|]. exists t. reflexivity.
Qed.

Lemma ends_with_spec : forall p s, path_ends_with p s = true <-> exists front, p = front ++ s.
Proof.
  intros p s. unfold path_ends_with. rewrite go_prefix. split.
  - intros (t & e). exists (rev t). rewrite <- (rev_involutive p), e, rev_app_distr, rev_involutive. reflexivity.
  - intros (t & ->). exists (rev t). rewrite rev_app_distr. reflexivity.
Qed.

Lemma skipped_spec : forall ignored p, skipped ignored p = true <-> unwanted ignored p.
Proof.
  intros ignored p. unfold skipped, unwanted. rewrite existsb_exists. split.
  - intros (s & h & e). apply ends_with_spec in e as (f & e). eauto.
  - intros (s & f & h & e). exists s. split; [exact h|]. apply ends_with_spec. eauto.
Qed.

Lemma before_dot_some : forall l acc r ext, before_dot l acc = Some (r, ext) ->
  rev l ++ acc = rev r ++ [46] ++ ext.
Proof.
  induction l as [|c l IH]; intros acc r ext e; cbn [before_dot] in e; [discriminate e|].
  destruct (N.eqb_spec c 46) as [->|n].
  - injection e as <- <-. cbn [rev]. rewrite <- app_assoc. reflexivity.
  - apply IH in e. cbn [rev]. rewrite <- app_assoc. exact e.
Qed.

Lemma before_dot_php : forall r, before_dot (rev (r ++ lit ".php")) [] = Some (rev r, lit "php").
Proof. intros r. rewrite rev_app_distr. reflexivity. Qed.

Lemma php_spec : forall name,
  (match extension name with Some ext => str_eqb ext (lit "php") | None => false end) = true <->
  exists stem, stem <> [] /\ name = stem ++ lit ".php".
Proof.
  intros name. unfold extension. split.
  - intros h. destruct (before_dot (rev name) []) as [[r ext]|] eqn:e; [|discriminate h].
    destruct r as [|c r]; [discriminate h|]. apply str_eqb_eq in h. subst ext.
    apply before_dot_some in e. rewrite rev_involutive, app_nil_r in e. exists (rev (c :: r)).
    split; [|exact e]. cbn [rev]. intros q. destruct (rev r); discriminate q.
  - intros (stem & ne & ->). rewrite before_dot_php. destruct (rev stem) as [|c l] eqn:e; [|now apply str_eqb_eq].
    destruct ne. rewrite <- (rev_involutive stem), e. reflexivity.
Qed.

Lemma php_last : forall name rel, rel <> [] -> php_file (name :: rel) <-> php_file rel.
Proof.
  intros name rel ne. unfold php_file. split; intros (dirs & stem & h & e).
  - destruct dirs as [|d dirs]; cbn in e; injection e; intros; subst; [congruence|]. exists dirs, stem. auto.
  - exists (name :: dirs), stem. subst. auto.
Qed.

Lemma lies_ne : forall l rel, lies l rel -> rel <> [].
Proof. induction 1; congruence. Qed.

Lemma wanted_below : forall ignored dir name rel, rel <> [] ->
  wanted ignored dir (name :: rel) <-> ~ unwanted ignored (dir ++ [name]) /\ wanted ignored (dir ++ [name]) rel.
Proof.
  intros ignored dir name rel ne. unfold wanted. split.
  - intros h. split; [apply (h [name] rel); [reflexivity|discriminate]|]. intros front rest -> nf.
    rewrite <- app_assoc. apply (h (name :: front) rest); [reflexivity|discriminate].
  - intros (h1 & h2) front rest e nf. destruct front as [|n front]; [congruence|]. injection e as -> ->.
    destruct front as [|f front]; [exact h1|].
    specialize (h2 (f :: front) rest eq_refl). rewrite <- app_assoc in h2. apply h2. discriminate.
Qed.

Lemma wanted_file : forall ignored dir name,
  wanted ignored dir [name] <-> ~ unwanted ignored (dir ++ [name]).
Proof.
  intros ignored dir name. unfold wanted. split.
  - intros h. apply (h [name] []); [reflexivity|discriminate].
  - intros h front rest e nf. destruct front as [|n front]; [congruence|]. injection e as -> e.
    symmetry in e. apply app_eq_nil in e as (-> & _). exact h.
Qed.

Scheme listing_both := Induction for listing Sort Prop
  with entry_both := Induction for entry Sort Prop.

(** What is found is there, ends in [.php] and is wanted. *)
Lemma walk_sound : forall ignored l dir p, In p (reindex_folder ignored dir l) ->
  exists rel, p = dir ++ rel /\ lies l rel /\ php_file rel /\ wanted ignored dir rel.
Proof.
  intros ignored.
  apply (listing_both
    (fun l => forall dir p, In p (reindex_folder ignored dir l) ->
       exists rel, p = dir ++ rel /\ lies l rel /\ php_file rel /\ wanted ignored dir rel)
    (fun e => forall dir p, In p (reindex_entry ignored dir e) ->
       exists rel, p = dir ++ rel /\ (forall rest, lies (More e rest) rel) /\ php_file rel /\ wanted ignored dir rel));
    cbn [reindex_folder reindex_entry]; try (intros; contradiction).
  - intros e IHe rest IHr dir p h. apply in_app_iff in h as [h|h].
    + apply IHe in h as (rel & h1 & h2 & h3). exists rel. auto.
    + apply IHr in h as (rel & h1 & h2 & h3). exists rel. split; [exact h1|]. split; [now apply lies_behind|exact h3].
  - intros name dir p h. destruct (skipped ignored (dir ++ [name])) eqn:es; [destruct h|].
    pose proof (php_spec name) as ps. destruct (extension name) as [ext|]; [|destruct h].
    destruct (str_eqb ext (lit "php")); [|destruct h]. destruct h as [<-|[]].
    destruct (proj1 ps eq_refl) as (stem & ne & ->). eexists. split; [reflexivity|].
    split; [intros; apply lies_here|]. split; [exists [], stem; auto|]. apply wanted_file.
    intros u. apply skipped_spec in u. congruence.
  - intros name contents IH dir p h. destruct (skipped ignored (dir ++ [name])) eqn:es; [destruct h|].
    apply IH in h as (rel & -> & h2 & h3 & h4). exists (name :: rel). rewrite <- app_assoc. split; [reflexivity|].
    split; [intros; now apply lies_below|]. pose proof (lies_ne _ _ h2) as ne. split; [now apply php_last|].
    apply wanted_below; [exact ne|]. split; [|exact h4]. intros u. apply skipped_spec in u. congruence.
Qed.

Lemma walk_complete : forall ignored l rel, lies l rel -> forall dir, readable l -> php_file rel ->
  wanted ignored dir rel -> In (dir ++ rel) (reindex_folder ignored dir l).
Proof.
  induction 1 as [name rest|name contents rest rel hl IH|e rest rel hl IH|rest rel hl IH]; intros dir r hp hw;
    cbn [reindex_folder reindex_entry].
  - apply in_app_iff. left. apply wanted_file in hw.
    destruct (skipped ignored (dir ++ [name])) eqn:es; [elim hw; now apply skipped_spec|].
    destruct hp as (dirs & stem & ne & e). destruct dirs as [|d dirs].
    2:{ injection e; intros e' _. destruct dirs; discriminate e'. }
    injection e as e. pose proof (proj2 (php_spec name) (ex_intro _ stem (conj ne e))) as q.
    destruct (extension name); [|discriminate q]. rewrite q. left. reflexivity.
  - apply in_app_iff. left. pose proof (lies_ne _ _ hl) as ne. apply wanted_below in hw as (h1 & h2); [|exact ne].
    destruct (skipped ignored (dir ++ [name])) eqn:es; [elim h1; now apply skipped_spec|].
    replace (dir ++ name :: rel) with ((dir ++ [name]) ++ rel) by (rewrite <- app_assoc; reflexivity).
    apply IH; [inversion r; assumption| |exact h2]. eapply php_last; [exact ne|exact hp].
  - apply in_app_iff. right. apply IH; auto. inversion r; assumption.
  - inversion r.
Qed.

(** * C53 *)

(** The files that are found are exactly those that lie below the directory, are
    called [something.php] and neither are nor lie below something that ends with
    an ignored path.  What is missing for the full statement: directories that
    cannot be read in full, see [C53_refuted]. *)
Theorem C53_walk_partial : forall ignored dir l p, readable l ->
  In p (reindex_folder ignored dir l) <->
  exists rel, p = dir ++ rel /\ lies l rel /\ php_file rel /\ wanted ignored dir rel.
Proof.
  intros ignored dir l p r. split; [apply walk_sound|].
  intros (rel & -> & h1 & h2 & h3). now apply walk_complete.
Qed.

(** Nothing else is found, readable or not. *)
Theorem C53_only : forall ignored dir l p, In p (reindex_folder ignored dir l) ->
  exists rel, p = dir ++ rel /\ lies l rel /\ php_file rel /\ wanted ignored dir rel.
Proof. intros ignored dir l p. apply walk_sound. Qed.

(** The files behind an entry that cannot be read are lost, all of them. *)
Theorem C53_refuted : forall ignored dir name,
  (forall l, reindex_folder ignored dir (Broken l) = []) /\
  (~ unwanted ignored (dir ++ [name ++ lit ".php"]) -> name <> [] ->
   let l := Broken (More (File (name ++ lit ".php")) Empty) in
   exists rel, lies l rel /\ php_file rel /\ wanted ignored dir rel /\
     ~ In (dir ++ rel) (reindex_folder ignored dir l)).
Proof.
  intros ignored dir name. split; [reflexivity|]. intros h ne l. exists [name ++ lit ".php"].
  split; [apply lies_past, lies_here|]. split; [exists [], name; auto|].
  split; [now apply wanted_file|]. intros [].
Qed.

Definition tree53 : listing :=
  More (File (lit "a.php")) (More (Folder (lit "vendor") (More (File (lit "b.php")) Empty))
    (More (Folder (lit "src") (More (File (lit ".php")) (More (File (lit "c.d.php")) (More (File (lit "e.txt")) Empty)))) Empty)).

Example C53_case : readable tree53 /\
  reindex_folder [[lit "vendor"]] [lit "/"; lit "w"] tree53 =
    [[lit "/"; lit "w"; lit "a.php"]; [lit "/"; lit "w"; lit "src"; lit "c.d.php"]].
Proof. split; [repeat constructor|vm_compute; reflexivity]. Qed.

(** * C54 *)

(** The claim: the check of a file speaks about what the file contains: it says
    that the file parses iff the text of the file has no syntax errors. *)
Definition right_check (RT : Runtime) (HH : Hashing) : Prop :=
  forall fuel disk file content l s s', disk file = Some content ->
  check_file fuel disk file s = Done l s' ->
  (l = [ParsedOk] <-> exists ts tree t, scan content = SOk ts /\ ast fuel ts = POk (tree, []) t).

(** The check looks at the name of the file instead: every name that does not
    contain PHP passes, whatever the file contains and whether it exists. *)
Theorem C54_refuted : forall (RT : Runtime) (HH : Hashing),
  (forall fuel disk file s,
     ~ SpecScanner.contains (lit "<?") file -> ~ SpecScanner.contains (lit "<<<") file ->
     check_file fuel disk file s = Done [ParsedOk] s) /\
  (forall fuel disk shown ignored dir l s,
     (forall p, ~ SpecScanner.contains (lit "<?") (shown p) /\ ~ SpecScanner.contains (lit "<<<") (shown p)) ->
     check_dir fuel disk shown ignored dir l s = Done [] s) /\
  ~ right_check RT HH.
Proof.
  intros RT HH.
  assert (src : forall fuel file s, ~ SpecScanner.contains (lit "<?") file -> ~ SpecScanner.contains (lit "<<<") file ->
     exists r, source_to_ast fuel file s = Done (inl r) s).
  { intros fuel file s h1 h2. pose proof (C04_html_no_tokens_partial RT file h1 h2) as e. unfold scan in e.
    unfold source_to_ast. destruct (scan_state file) as [st| | |]; try discriminate e. injection e as e.
    rewrite e. cbn [ast]. eexists. reflexivity. }
  assert (A : forall fuel disk file s,
     ~ SpecScanner.contains (lit "<?") file -> ~ SpecScanner.contains (lit "<<<") file ->
     check_file fuel disk file s = Done [ParsedOk] s).
  { intros fuel disk file s h1 h2. unfold check_file, ebind. destruct (src fuel file s h1 h2) as (r & ->). reflexivity. }
  split; [exact A|]. split.
  - intros fuel disk shown ignored dir l s h. unfold check_dir.
    induction (reindex_folder ignored dir l) as [|p ps IH]; cbn [efold]; [reflexivity|].
    unfold ebind at 1 2. destruct (h p) as (h1 & h2). destruct (src fuel (shown p) s h1 h2) as (r & ->).
    unfold eret at 1. exact IH.
  - intros R.
    assert (D : forall t, forallb (fun c => negb (c =? 60)) t = true -> ~ SpecScanner.contains (lit "<?") t /\ ~ SpecScanner.contains (lit "<<<") t).
    { intros t H. split; intros (a & b & ->); rewrite !forallb_app in H; cbn in H; now rewrite andb_false_r in H. }
    destruct (D (lit "a.php") eq_refl) as (d1 & d2).
    destruct (proj1 (R 40%nat (fun _ => Some (lit "<?php )")) (lit "a.php") _ _ backend_new _ eq_refl
      (A 40%nat _ _ backend_new d1 d2)) eq_refl) as (ts & tree & t & e1 & e2).
    vm_compute in e1. injection e1 as <-. vm_compute in e2. discriminate e2.
Qed.

(** What the checks do: a file passes if its name parses, and a directory is
    complained about once for each file whose path does not. *)
Theorem C54_names_partial : forall (RT : Runtime) (HH : Hashing) fuel disk s s' out,
  (forall file, check_file fuel disk file s = Done out s' ->
     out = match syntax fuel file with Some _ => [ParsedOk] | None => [Complaint] end) /\
  (forall shown ignored dir l, check_dir fuel disk shown ignored dir l s = Done out s' ->
     out = map (fun _ => Complaint)
       (filter (fun p => negb (is_some (syntax fuel (shown p)))) (reindex_folder ignored dir l))).
Proof.
  intros RT HH fuel disk s s' out. split.
  - intros file e. unfold check_file, ebind in e. destruct (source_to_ast fuel file s) as [x t| |] eqn:es; try discriminate e.
    injection e as <- _. apply BackendFacts.source_spec in es as [_ es]. destruct x as [[[nodes r] errors]|]; rewrite es; reflexivity.
  - intros shown ignored dir l e. unfold check_dir in e.
    assert (k : forall ps acc, efold (fun acc p =>
        elet r <- source_to_ast fuel (shown p) in
        eret (match r with inl _ => acc | inr _ => acc ++ [Complaint] end)) acc ps s = Done out s' ->
      out = acc ++ map (fun _ => Complaint) (filter (fun p => negb (is_some (syntax fuel (shown p)))) ps)).
    { clear e. induction ps as [|p ps IH]; intros acc e; cbn [efold] in e.
      - injection e as <- _. cbn. rewrite app_nil_r. reflexivity.
      - unfold ebind at 1 2 in e. destruct (source_to_ast fuel (shown p) s) as [x t| |] eqn:es; try discriminate e.
        apply BackendFacts.source_spec in es as [-> es]. cbn [filter]. unfold eret at 1 in e.
        destruct x as [[[nodes r] errors]|]; rewrite es; cbn [is_some negb map]; apply IH in e; rewrite e; [reflexivity|].
        rewrite <- app_assoc. reflexivity. }
    apply k in e. exact e.
Qed.

(** A file with a strange name *)
Example C54_name_case : exists s', check_dir 40 (fun _ => None) (fun p => flat_map (fun n => n) p) [] [lit "d"]
    (More (File (lit "<?php <<<A.php")) (More (File (lit "a.php")) Empty)) backend_new = Done [Complaint] s'.
Proof. eexists. vm_compute. reflexivity. Qed.

Example C54_case : exists l s, check_file 40 (fun _ => Some (lit "<?php )")) (lit "src/broken.php") backend_new = Done l s /\
  l = [ParsedOk].
Proof. eexists. eexists. split; [vm_compute; reflexivity|reflexivity]. Qed.

Print Assumptions C53_walk_partial.
Print Assumptions C53_only.
Print Assumptions C53_refuted.
Print Assumptions C54_refuted.
Print Assumptions C54_names_partial.
