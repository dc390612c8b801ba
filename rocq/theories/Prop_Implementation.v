(** Property C45: which classes and methods "go to implementation" answers with. *)

From Coq Require Import Permutation Relations.
From Verif Require Import Base Token Scanner Node DocBlock Parser Assoc AssocFacts Arena ArenaFacts
  Symbol EnvMonad EnvFacts Workspace WorkspaceFacts Resolver SpecNames ResolverFacts
  Backend BackendFacts SpecServer ServerInv Prop_Server Prop_Names Prop_Members Prop_Overrides Suggester
  Prop_Suggest Implementation.

Local Notation findS := (find str_eqb).
Local Existing Instance ascii_runtime | 9.
Local Existing Instance plain_hashing | 9.
Local Open Scope string_scope.
Local Open Scope N_scope.
Local Open Scope list_scope.

(** * Specification *)

(** [c] is a class that the index knows *)
Definition indexed_class (b : bst) (c : N) (d : Symbol) : Prop :=
  (exists k, In (k, c) (b_global b)) /\ data (b_arena b) c = Some d /\ y_kind d = KClass.

(** [file] is the file around [c] *)
Definition file_of (a : arena Symbol) (c file : N) : Prop :=
  exists l1 l2 d, ancestors a c = Some (l1 ++ file :: l2) /\ data a file = Some d /\ y_kind d = KFile /\
    forall j dj, In j l1 -> data a j = Some dj -> y_kind dj <> KFile.

Definition last_word (w : written) : str := match w with Written _ f r => last (f :: r) [] end.

Section Spec.
Context {RT : Runtime}.

(** The class [c] in the file [file] implements, by the name [w], what has the
    full name [full]: [w] is one of the names after [implements] and stands, read
    in [file], for [full].  (The data types of a class are its own name and the
    names after [implements].  [w] has to differ from the name of the class.) *)
Definition implements (b : bst) (c file : N) (d : Symbol) (w : written) (full : list str) : Prop :=
  exists tr, In tr (type_names d) /\ asks (resolver_at b file) tr file w full /\
    to_lowercase (last_word w) <> to_lowercase (sym_name d).

(** [j] is the first symbol declared in [c] with the name [name] *)
Definition first_named (a : arena Symbol) (c : N) (name : str) (j : N) (dj : Symbol) : Prop :=
  exists l1 l2, kids a c = Some (l1 ++ j :: l2) /\ data a j = Some dj /\
    to_lowercase (sym_name dj) = to_lowercase name /\
    forall x dx, In x l1 -> data a x = Some dx -> to_lowercase (sym_name dx) <> to_lowercase name.

End Spec.

(** * Proofs *)

Section C45.
Context {RT : Runtime} {HH : Hashing}.

Lemma r_fold_done : forall A C b (f : C -> A -> B C) (I : list A -> C -> Prop) l c0,
  I [] c0 -> (forall done x y, I done x -> In y l -> reads b (f x y) (I (done ++ [y]))) ->
  reads b (efold f c0 l) (I l).
Proof.
  intros A C b f I l c0 h0 h.
  assert (H : forall rest done c, l = done ++ rest -> I done c -> reads b (efold f c rest) (I l)).
  { induction rest as [|y rest IH]; intros done c e hb; cbn [efold].
    - rewrite app_nil_r in e. subst done. apply r_ret. exact hb.
    - eapply r_bind; [apply h; [exact hb|rewrite e; apply in_or_app; right; left; reflexivity]|].
      intros x hx. eapply IH; [|exact hx]. rewrite <- app_assoc. exact e. }
  apply (H l []); auto.
Qed.

(** The first element with an answer *)
Lemma r_first : forall A C b (f : A -> B (option C)) (P : A -> option C -> Prop) l,
  (forall y, In y l -> reads b (f y) (P y)) ->
  reads b (efind f l) (fun o => (exists l1 y l2 c, l = l1 ++ y :: l2 /\ o = Some c /\ P y (Some c) /\
                                   forall z, In z l1 -> P z None) \/
                                (o = None /\ forall z, In z l -> P z None)).
Proof.
  intros A C b f P l. induction l as [|y l IH]; intros h; cbn [efind]; [apply r_ret; right; split; [auto|intros z []]|].
  eapply r_bind; [apply h; left; reflexivity|]. intros [c|] hc.
  - apply r_ret. left. exists [], y, l, c. repeat split; auto. intros z [].
  - eapply r_weak; [apply IH; intros z hz; apply h; right; exact hz|]. cbv beta.
    intros o [(l1 & y' & l2 & c & -> & -> & hp & hn)|(-> & hn)]; [left|right].
    + exists (y :: l1), y', l2, c. split; [reflexivity|]. split; [reflexivity|]. split; [exact hp|].
      intros z [<-|hz]; auto.
    + split; [auto|]. intros z [<-|hz]; auto.
Qed.

Lemma r_enclosing : forall b c, reads b (enclosing_file c) (file_of (b_arena b) c).
Proof.
  intros b c. unfold enclosing_file. eapply r_bind; [apply r_ancestors|]. intros anc ha.
  eapply r_bind.
  - apply (r_first _ _ b _ (fun i o => exists d, data (b_arena b) i = Some d /\ o = if kind_eqb (y_kind d) KFile then Some i else None)).
    intros y _. eapply r_bind; [apply r_data|]. intros d hd. apply r_ret. exists d. auto.
  - cbv beta. intros o ho. eapply r_weak; [apply r_opt|]. cbv beta. intros f ef. subst o.
    destruct ho as [(l1 & y & l2 & c' & -> & [= <-] & (d & hd & hc) & hn)|(h & _)]; [|discriminate h].
    destruct (kind_eqb (y_kind d) KFile) eqn:ek; [|discriminate hc]. injection hc as ->.
    exists l1, l2, d. split; [exact ha|]. split; [exact hd|]. split; [apply kind_eqb_eq; exact ek|].
    intros j dj hj hdj. destruct (hn j hj) as (d' & hd' & e). rewrite hdj in hd'. injection hd' as <-.
    intros ek'. rewrite ek' in e. discriminate e.
Qed.

Lemma file_unique : forall a c f g, file_of a c f -> file_of a c g -> f = g.
Proof.
  intros a c f g (l1 & l2 & d & ha & hd & hk & hn) (m1 & m2 & e & hb & he & hl & hm).
  rewrite ha in hb. injection hb as hb. clear ha. revert m1 hb hm hn.
  induction l1 as [|x l1 IH]; intros [|y m1] hb hm hn; cbn [app] in hb.
  - injection hb as -> _. reflexivity.
  - injection hb as <- _. exfalso. eapply hm; [left; reflexivity|exact hd|exact hk].
  - injection hb as -> _. exfalso. eapply hn; [left; reflexivity|exact he|exact hl].
  - injection hb as -> hb. eapply IH; [exact hb| |].
    + intros j dj hj. apply hm. right. exact hj.
    + intros j dj hj. apply hn. right. exact hj.
Qed.

(** What makes one name count *)
Definition counts (fuel : nat) (b : bst) (i file : N) (tr : TypeRef) (yes : bool) : Prop :=
  exists o s, resolve_type_ref fuel tr file false (resolver_at b file) = Done o s /\
    match o with
    | None => yes = false
    | Some x => if x =? i then yes = true
                else exists d s', data (b_arena b) x = Some d /\ is_child_of fuel d x i s = Done yes s'
    end.

Lemma r_names : forall fuel b i c tr, reads b (names_interface fuel i c tr) (fun o =>
  exists file yes, file_of (b_arena b) c file /\ counts fuel b i file tr yes /\
    if yes then exists fd, data (b_arena b) file = Some fd /\ o = Some (sym_name fd) else o = None).
Proof.
  intros fuel b i c tr. unfold names_interface. eapply r_bind; [apply r_enclosing|]. intros file hf.
  eapply r_bind with (P := counts fuel b i file tr).
  - intros yes b' e. unfold with_resolver in e. fold (resolver_at b file) in e.
    match type of e with match ?m with _ => _ end = _ => destruct m as [y s'| |] eqn:em; try discriminate e end.
    injection e as <- <-. split; [reflexivity|]. unfold ebind at 1 in em.
    destruct (resolve_type_ref fuel tr file false (resolver_at b file)) as [o s1| |] eqn:e1; try discriminate em.
    exists o, s1. split; [exact e1|]. destruct o as [x|]; [|injection em as <- _; reflexivity].
    destruct (x =? i); [injection em as <- _; reflexivity|].
    unfold ebind in em. unfold e_data in em. cbn [the_arena rst_arena] in em.
    destruct (kept_resolve _ _ _ _ _ _ _ e1) as [ha _]. rewrite ha in em. cbn [r_arena resolver_at resolver_new] in em.
    destruct (data (b_arena b) x) as [d|]; [|discriminate em]. exists d, s'. auto.
  - cbv beta. intros [] hc.
    + eapply r_bind; [apply r_data|]. intros fd hd. apply r_ret. exists file, true. split; [exact hf|]. split; [exact hc|]. exists fd. auto.
    + apply r_ret. exists file, false. auto.
Qed.

(** The list of implementing classes *)
Lemma r_implementing : forall fuel b i, reads b (implementing_interfaces fuel i) (fun l =>
  (forall f c, In (f, c) l -> exists d file fd tr, indexed_class b c d /\ file_of (b_arena b) c file /\
     data (b_arena b) file = Some fd /\ f = sym_name fd /\ In tr (candidates d) /\ counts fuel b i file tr true) /\
  (forall c d file fd tr, indexed_class b c d -> file_of (b_arena b) c file -> data (b_arena b) file = Some fd ->
     In tr (candidates d) -> (forall yes, counts fuel b i file tr yes -> yes = true) -> In (sym_name fd, c) l)).
Proof.
  intros fuel b i. unfold implementing_interfaces. eapply r_bind; [apply r_get|]. cbv beta. intros g ->.
  eapply r_weak.
  - apply (r_fold_done _ _ b _ (fun done l =>
      (forall f c, In (f, c) l -> exists d file fd tr, indexed_class b c d /\ file_of (b_arena b) c file /\
         data (b_arena b) file = Some fd /\ f = sym_name fd /\ In tr (candidates d) /\ counts fuel b i file tr true) /\
      (forall k c d file fd tr, In (k, c) done -> data (b_arena b) c = Some d -> y_kind d = KClass ->
         file_of (b_arena b) c file -> data (b_arena b) file = Some fd ->
         In tr (candidates d) -> (forall yes, counts fuel b i file tr yes -> yes = true) -> In (sym_name fd, c) l))).
    + split; [intros f c []|intros k c d file fd tr []].
    + intros done l [k c] (h1 & h2) hin. cbn [snd]. eapply r_bind; [apply r_data|]. intros d hd.
      assert (hg : In (k, c) (b_global b)) by (eapply Permutation_in; [apply h_perm|exact hin]).
      destruct (kind_eqb (y_kind d) KClass) eqn:ek; cbn [negb].
      2:{ apply r_ret. split; [exact h1|]. intros k0 c0 d0 file fd tr hi hd0 hk0. apply in_app_iff in hi.
          destruct hi as [hi|[[= <- <-]|[]]]; [eapply h2; eauto|]. rewrite hd in hd0. injection hd0 as <-.
          rewrite hk0 in ek. discriminate ek. }
      apply kind_eqb_eq in ek.
      eapply r_bind; [apply r_first; intros y _; apply r_names|]. cbv beta. intros o ho. apply r_ret.
      destruct ho as [(l1 & tr & l2 & f & el & -> & (file & yes & hf & hc & hy) & hn)|(-> & hn)].
      * destruct yes; [|discriminate hy]. destruct hy as (fd & hfd & [= ->]). split.
        -- intros f' c' h. apply in_app_iff in h. destruct h as [h|[[= <- <-]|[]]]; [auto|].
           exists d, file, fd, tr. split; [split; [exists k; exact hg|auto]|]. split; [exact hf|]. split; [exact hfd|].
           split; [reflexivity|]. split; [|exact hc]. rewrite el. apply in_or_app. right. left. reflexivity.
        -- intros k0 c0 d0 file0 fd0 tr0 hi hd0 hk0 hf0 hfd0 ht0 hc0. apply in_or_app. apply in_app_iff in hi.
           destruct hi as [hi|[[= <- <-]|[]]]; [left; eapply h2; eauto|right; left].
           rewrite (file_unique _ _ _ _ hf0 hf) in hfd0. rewrite hfd in hfd0. injection hfd0 as <-. reflexivity.
      * split; [exact h1|]. intros k0 c0 d0 file0 fd0 tr0 hi hd0 hk0 hf0 hfd0 ht0 hc0. apply in_app_iff in hi.
        destruct hi as [hi|[[= <- <-]|[]]]; [eapply h2; eauto|]. exfalso. rewrite hd in hd0. injection hd0 as <-.
        destruct (hn tr0 ht0) as (file & yes & hf & hc & hy). rewrite (file_unique _ _ _ _ hf0 hf) in hc0.
        rewrite (hc0 _ hc) in hy. destruct hy as (fd & _ & h). discriminate h.
  - cbv beta. intros l (h1 & h2). split; [exact h1|].
    intros c d file fd tr ((k & hk) & hd & hc) hf hfd ht hy. eapply h2; eauto.
    eapply Permutation_in; [apply Permutation_sym, h_perm|exact hk].
Qed.

Lemma tip_of : forall tr w, spells tr w -> tref_tip tr = Some (last_word w).
Proof.
  intros tr w h. inversion h as [b t w0 ts ws m hb ht hr|t w0 ts ws m ht hr]; subst; unfold tref_tip; cbn [kind last_word].
  - rewrite last_skip. apply (last_rest _ _ hr _ _ ht).
  - apply (last_rest _ _ hr _ _ ht).
Qed.

Lemma candidate : forall d tr w, In tr (type_names d) -> spells tr w ->
  to_lowercase (last_word w) <> to_lowercase (sym_name d) -> In tr (candidates d).
Proof.
  intros d tr w hin hs hne. apply filter_In. split; [exact hin|]. rewrite (tip_of _ _ hs).
  unfold normalized_name. destruct (str_eqb_spec (to_lowercase (last_word w)) (to_lowercase (sym_name d))); [contradiction|reflexivity].
Qed.

Lemma direct_counts : forall fuel b c file d w full i, implements b c file d w full ->
  findS (to_lowercase (joined full)) (b_global b) = Some i ->
  exists tr, In tr (candidates d) /\ forall yes, counts fuel b i file tr yes -> yes = true.
Proof.
  intros fuel b c file d w full i (tr & hin & ha & hne) hf. exists tr.
  split; [eapply candidate; eauto; apply (as_spells _ _ _ _ _ ha)|].
  intros yes (o & s & e & h). destruct fuel as [|fuel]; [discriminate e|]. pose proof (answer_of _ _ _ _ _ _ _ _ _ ha e) as ho.
  cbn [r_global resolver_at resolver_new] in ho. rewrite hf in ho. destruct ho as [-> _].
  rewrite N.eqb_refl in h. exact h.
Qed.

(** ** Nothing else is in the answer *)

Lemma y_above : forall s ctx i fuel c d, data (r_arena s) c = Some d ->
  yields s (is_child_of fuel d ctx i) (fun yes => yes = true -> clos_trans N (extends_to s ctx) c i).
Proof.
  intros s ctx i. induction fuel as [|fuel IH]; intros c d hd; cbn [is_child_of]; [intros s1 x s2 l e; discriminate e|].
  eapply y_bind with (P := fun m : list (str * N) => forall k n, In (k, n) m -> extends_to s ctx c n).
  { unfold parent_nodes. fold (the_list (y_inherits d)).
    apply (y_fold s _ _ _ (fun _ (m : list (str * N)) => forall k n, In (k, n) m -> extends_to s ctx c n)); [intros k n []|].
    intros done m r hm (rest & er).
    assert (hr : In (sr_type r) (parent_names d)).
    { unfold parent_names. rewrite er. apply in_map, in_or_app. right. left. reflexivity. }
    eapply y_bind; [apply (y_resolve s fuel parent_names c ctx d (sr_type r) hd hr (links_parent d))|].
    intros [n|] hn; [|apply y_ret; exact hm]. eapply y_bind; [apply y_data|]. intros dn _. apply y_ret.
    intros k n' h. apply in_put in h. destruct h as [[= -> ->]|h]; [|eauto]. apply hn. reflexivity. }
  cbv beta. intros ps hps.
  eapply y_bind with (P := fun o : option unit => o <> None -> clos_trans N (extends_to s ctx) c i).
  - assert (hq : forall k n, In (k, n) (h_order ps) -> extends_to s ctx c n).
    { intros k n h. eapply hps. eapply Permutation_in; [apply h_perm|exact h]. }
    clear hps. induction (h_order ps) as [|[k n] l IHl]; cbn [efind]; [apply y_ret; congruence|].
    eapply y_bind with (P := fun o : option unit => o <> None -> clos_trans N (extends_to s ctx) c i).
    + cbn [snd]. destruct (N.eqb_spec n i) as [-> |ne].
      * apply y_ret. intros _. apply t_step. eapply hq. left. reflexivity.
      * eapply y_bind; [apply y_data|]. intros dn hdn. eapply y_bind; [apply (IH n dn hdn)|]. cbv beta.
        intros yes hy. apply y_ret. destruct yes; [|congruence]. intros _.
        eapply t_trans; [apply t_step; eapply hq; left; reflexivity|auto].
    + cbv beta. intros [u|] hu; [apply y_ret; exact hu|]. apply IHl. intros k' n' h. eapply hq. right. exact h.
  - cbv beta. intros o ho. apply y_ret. intros e. apply ho. destruct o; [discriminate|discriminate e].
Qed.

Lemma counts_above : forall fuel b i c d file tr, data (b_arena b) c = Some d -> In tr (type_names d) ->
  counts fuel b i file tr true ->
  exists x, means_in (resolver_at b file) type_names c file x /\
    clos_refl_trans N (extends_to (resolver_at b file) x) x i.
Proof.
  intros fuel b i c d file tr hd hin (o & s & e & h). destruct o as [x|]; [|discriminate h]. exists x.
  destruct (y_resolve (resolver_at b file) fuel type_names c file d tr hd hin (links_type d) _ _ _ (looked_none _) e) as [hl hm].
  split; [apply hm; reflexivity|]. destruct (N.eqb_spec x i) as [-> |ne]; [apply rt_refl|].
  destruct h as (dx & s' & hx & h).
  destruct (y_above (resolver_at b file) x i fuel x dx hx _ _ _ hl h) as [_ hc].
  specialize (hc eq_refl). clear -hc. revert hc. generalize (extends_to (resolver_at b file) x). intros R hc. induction hc as [|y z w h1 IH1 h2 IH2]; [apply rt_step; auto|eapply rt_trans; eauto].
Qed.

(** The request in an interface, and on one of its methods *)
Lemma at_interface : forall fuel b path p i name di l b',
  symbol_under_cursor path p b = Done (Some (i, name)) b -> data (b_arena b) i = Some di -> y_kind di = KInterface ->
  goto_implementation fuel path p b = Done (Some l) b' ->
  exists cs, implementing_interfaces fuel i b = Done cs b /\
    forall f r, In (f, r) l <-> exists c d, In (f, c) cs /\ data (b_arena b) c = Some d /\ r = y_sel d.
Proof.
  intros fuel b path p i name di l b' hs hdi hk e.
  unfold goto_implementation in e. unfold ebind at 1 in e. rewrite hs in e. unfold ebind at 1 in e.
  unfold e_data at 1 in e. cbn [the_arena bst_arena] in e. rewrite hdi, hk in e.
  unfold ebind at 1 in e. destruct (implementing_interfaces fuel i b) as [cs b1| |] eqn:e1; try discriminate e.
  destruct (r_implementing fuel b i _ _ e1) as [-> _]. exists cs. split; [reflexivity|].
  unfold ebind at 1 in e.
  match type of e with match ?m with _ => _ end = _ => destruct m as [r b2| |] eqn:e2; try discriminate e end.
  injection e as <- _. clear -e2. revert r b2 e2. induction cs as [|x cs IH]; intros r b2 e2.
  - injection e2 as <- _. intros f r. split; [intros []|intros (c & d & [] & _)].
  - cbn [emap] in e2. unfold ebind at 1 in e2. unfold ebind at 1 in e2. unfold e_data at 1 in e2. cbn [the_arena bst_arena] in e2.
    destruct (data (b_arena b) (snd x)) as [dx|] eqn:ed; [|discriminate e2]. unfold eret at 1 in e2. unfold ebind at 1 in e2.
    match type of e2 with match ?m with _ => _ end = _ => destruct m as [r' b3| |] eqn:e3; try discriminate e2 end.
    injection e2 as <- <-. intros f r. destruct x as [fx cx]. cbn [fst snd] in *. split.
    + intros [[= <- <-]|h]; [exists cx, dx; split; [left; reflexivity|auto]|]. apply (IH _ _ eq_refl) in h. destruct h as (c & d & h1 & h2 & h3).
      exists c, d. split; [right; exact h1|auto].
    + intros (c & d & [[= <- <-]|h1] & h2 & ->); [left; rewrite ed in h2; injection h2 as <-; reflexivity|right].
      apply (IH _ _ eq_refl). exists c, d. auto.
Qed.

(** [method_of] finds the first child of that name *)
Lemma r_method : forall b name c, reads b (method_of (to_lowercase name) c) (fun o =>
  (exists j dj, first_named (b_arena b) c name j dj /\ o = Some (y_sel dj)) \/
  (o = None /\ forall j dj, ~ first_named (b_arena b) c name j dj)).
Proof.
  intros b name c. unfold method_of. eapply r_bind; [apply r_kids|]. intros ks hks.
  eapply r_weak.
  - apply (r_first _ _ b _ (fun i o => exists d, data (b_arena b) i = Some d /\
      o = if str_eqb (normalized_name d) (to_lowercase name) then Some (y_sel d) else None)).
    intros y _. eapply r_bind; [apply r_data|]. intros d hd. apply r_ret. exists d. auto.
  - cbv beta. intros o [(l1 & j & l2 & r & -> & -> & (dj & hd & hj) & hn)|(-> & hn)]; [left|right; split; [auto|]].
    + destruct (str_eqb_spec (normalized_name dj) (to_lowercase name)) as [ej|]; [|discriminate hj]. injection hj as ->.
      exists j, dj. split; [|reflexivity]. exists l1, l2. split; [exact hks|]. split; [exact hd|]. split; [exact ej|].
      intros x dx hx hdx ex. destruct (hn x hx) as (d' & hd' & e). rewrite hdx in hd'. injection hd' as <-.
      unfold normalized_name in e. rewrite ex in e. destruct (str_eqb_spec (to_lowercase name) (to_lowercase name)); [discriminate e|congruence].
    + intros j dj (l1 & l2 & hk & hd & ej & _). rewrite hks in hk. injection hk as ->.
      destruct (hn j) as (d' & hd' & e); [apply in_or_app; right; left; reflexivity|]. rewrite hd in hd'. injection hd' as <-.
      unfold normalized_name in e. rewrite ej in e. destruct (str_eqb_spec (to_lowercase name) (to_lowercase name)); [discriminate e|congruence].
Qed.

Lemma first_unique : forall a c name j dj k dk, first_named a c name j dj -> first_named a c name k dk -> j = k /\ dj = dk.
Proof.
  intros a c name j dj k dk (l1 & l2 & ha & hd & hk & hn) (m1 & m2 & hb & he & hl & hm).
  assert (j = k); [|split; [auto|congruence]].
  rewrite ha in hb. injection hb as hb. clear ha. revert m1 hb hm hn.
  induction l1 as [|x l1 IH]; intros [|y m1] hb hm hn; cbn [app] in hb.
  - injection hb as -> _. reflexivity.
  - injection hb as <- _. exfalso. eapply hm; [left; reflexivity|exact hd|exact hk].
  - injection hb as -> _. exfalso. eapply hn; [left; reflexivity|exact he|exact hl].
  - injection hb as -> hb. eapply IH; [exact hb| |].
    + intros z dz hz. apply hm. right. exact hz.
    + intros z dz hz. apply hn. right. exact hz.
Qed.

Lemma at_method : forall fuel b path p m name dm i di l b',
  symbol_under_cursor path p b = Done (Some (m, name)) b -> data (b_arena b) m = Some dm -> y_kind dm = KMethod ->
  parent_of (b_arena b) m = Some (Some i) -> data (b_arena b) i = Some di -> y_kind di = KInterface ->
  goto_implementation fuel path p b = Done (Some l) b' ->
  exists cs, implementing_interfaces fuel i b = Done cs b /\
    forall f r, In (f, r) l <-> exists c j dj, In (f, c) cs /\ first_named (b_arena b) c name j dj /\ r = y_sel dj.
Proof.
  intros fuel b path p m name dm i di l b' hs hdm hkm hp hdi hk e.
  unfold goto_implementation in e. unfold ebind at 1 in e. rewrite hs in e. unfold ebind at 1 in e.
  unfold e_data at 1 in e. cbn [the_arena bst_arena] in e. rewrite hdm, hkm in e.
  unfold ebind at 1 in e. unfold e_parent at 1 in e. cbn [the_arena bst_arena] in e. rewrite hp in e.
  unfold ebind at 1 in e. unfold e_data at 1 in e. cbn [the_arena bst_arena] in e. rewrite hdi, hk in e.
  change (kind_eqb KInterface KInterface) with true in e. cbv iota in e.
  unfold ebind at 1 in e. destruct (implementing_interfaces fuel i b) as [cs b1| |] eqn:e1; try discriminate e.
  destruct (r_implementing fuel b i _ _ e1) as [-> _]. exists cs. split; [reflexivity|].
  unfold ebind at 1 in e.
  match type of e with match ?m with _ => _ end = _ => destruct m as [r b2| |] eqn:e2; try discriminate e end.
  injection e as <- _.
  enough (H : reads b (efold (fun acc e =>
                  elet m <- method_of (to_lowercase name) (snd e) in
                  eret (match m with Some r => acc ++ [(fst e, r)] | None => acc end)) [] cs)
     (fun l => forall f r, In (f, r) l <-> exists c j dj, In (f, c) cs /\ first_named (b_arena b) c name j dj /\ r = y_sel dj)).
  { apply (H _ _ e2). }
  apply (r_fold_done _ _ b _ (fun done l => forall f r, In (f, r) l <->
    exists c j dj, In (f, c) done /\ first_named (b_arena b) c name j dj /\ r = y_sel dj)).
  { intros f r'. split; [intros []|intros (c & j & dj & [] & _)]. }
  intros done acc [f c] hacc hin. cbn [fst snd]. eapply r_bind; [apply r_method|]. cbv beta.
  intros o ho. apply r_ret. intros f' r'. destruct ho as [(j & dj & hj & ->)|(-> & hno)].
  - rewrite in_app_iff. split.
    + intros [h|[[= <- <-]|[]]].
      * apply hacc in h. destruct h as (c' & j' & dj' & h1 & h2 & h3). exists c', j', dj'.
        split; [apply in_or_app; left; exact h1|auto].
      * exists c, j, dj. split; [apply in_or_app; right; left; reflexivity|auto].
    + intros (c' & j' & dj' & h1 & h2 & ->). apply in_app_iff in h1. destruct h1 as [h1|[[= <- <-]|[]]].
      * left. apply hacc. exists c', j', dj'. auto.
      * right. left. destruct (first_unique _ _ _ _ _ _ _ hj h2) as [_ ->]. reflexivity.
  - rewrite hacc. split; intros (c' & j' & dj' & h1 & h2 & h3); exists c', j', dj'; (split; [|auto]).
    + apply in_or_app. left. exact h1.
    + apply in_app_iff in h1. destruct h1 as [h1|[[= <- <-]|[]]]; [exact h1|]. exfalso. eapply hno; eauto.
Qed.

(** * C45 *)

(** Completeness.  With the cursor in an interface, the answer has every class of
    the workspace that names the interface after [implements].  (Missing: the
    classes that implement it through a class above them; names that are spelled
    like the class.  For interfaces above others see [C45_above_partial].) *)
Theorem C45_direct_partial : forall fuel b path p i name di l b' c d file fd w full,
  symbol_under_cursor path p b = Done (Some (i, name)) b -> data (b_arena b) i = Some di -> y_kind di = KInterface ->
  goto_implementation fuel path p b = Done (Some l) b' ->
  indexed_class b c d -> file_of (b_arena b) c file -> data (b_arena b) file = Some fd ->
  implements b c file d w full -> findS (to_lowercase (joined full)) (b_global b) = Some i ->
  In (sym_name fd, y_sel d) l.
Proof.
  intros fuel b path p i name di l b' c d file fd w full hs hdi hk e hc hf hfd him hi.
  destruct (at_interface _ _ _ _ _ _ _ _ _ hs hdi hk e) as (cs & e1 & hl). apply hl.
  destruct (r_implementing fuel b i _ _ e1) as [_ [_ h2]].
  destruct (direct_counts fuel _ _ _ _ _ _ _ him hi) as (tr & ht & hy).
  exists c, d. split; [eapply h2; eauto|]. split; [apply hc|reflexivity].
Qed.

(** The same for a method of an interface: the answer has the method of that name
    of every such class. *)
Theorem C45_method_partial : forall fuel b path p m name dm i di l b' c d file fd w full j dj,
  symbol_under_cursor path p b = Done (Some (m, name)) b -> data (b_arena b) m = Some dm -> y_kind dm = KMethod ->
  parent_of (b_arena b) m = Some (Some i) -> data (b_arena b) i = Some di -> y_kind di = KInterface ->
  goto_implementation fuel path p b = Done (Some l) b' ->
  indexed_class b c d -> file_of (b_arena b) c file -> data (b_arena b) file = Some fd ->
  implements b c file d w full -> findS (to_lowercase (joined full)) (b_global b) = Some i ->
  first_named (b_arena b) c name j dj ->
  In (sym_name fd, y_sel dj) l.
Proof.
  intros fuel b path p m name dm i di l b' c d file fd w full j dj hs hdm hkm hp hdi hk e hc hf hfd him hi hj.
  destruct (at_method _ _ _ _ _ _ _ _ _ _ _ hs hdm hkm hp hdi hk e) as (cs & e1 & hl). apply hl.
  destruct (r_implementing fuel b i _ _ e1) as [_ [_ h2]].
  destruct (direct_counts fuel _ _ _ _ _ _ _ him hi) as (tr & ht & hy).
  exists c, j, dj. split; [eapply h2; eauto|auto].
Qed.

(** A class that is in the list *)
Definition listed (b : bst) (i : N) (f : str) (c : N) (d : Symbol) : Prop :=
  exists file fd x, indexed_class b c d /\ file_of (b_arena b) c file /\ data (b_arena b) file = Some fd /\
    f = sym_name fd /\ means_in (resolver_at b file) type_names c file x /\
    clos_refl_trans N (extends_to (resolver_at b file) x) x i.

Lemma in_list : forall fuel b i cs f c, implementing_interfaces fuel i b = Done cs b -> In (f, c) cs ->
  exists d, listed b i f c d.
Proof.
  intros fuel b i cs f c e h. destruct (r_implementing fuel b i _ _ e) as [_ [h1 _]].
  destruct (h1 _ _ h) as (d & file & fd & tr & hc & hf & hfd & -> & ht & hcount).
  exists d. apply filter_In in ht. destruct ht as [ht _].
  destruct (counts_above fuel b i c d file tr) as (x & hx & hi); [apply hc|exact ht|exact hcount|].
  exists file, fd, x. auto 10.
Qed.

(** Soundness.  Every location of the answer is the name of a class of the
    workspace, one of whose data types was found to mean the interface or an
    interface that has it above itself; or, on a method, the method of that
    name of such a class.  (Missing: that the name does mean it, which is C30, and
    that the names of the interfaces between are read in the files they are
    written in, which they are not.) *)
Theorem C45_sound_partial : forall fuel b path p i name di l b' f r,
  symbol_under_cursor path p b = Done (Some (i, name)) b -> data (b_arena b) i = Some di -> y_kind di = KInterface ->
  goto_implementation fuel path p b = Done (Some l) b' -> In (f, r) l ->
  exists c d, listed b i f c d /\ r = y_sel d.
Proof.
  intros fuel b path p i name di l b' f r hs hdi hk e h.
  destruct (at_interface _ _ _ _ _ _ _ _ _ hs hdi hk e) as (cs & e1 & hl). apply hl in h.
  destruct h as (c & d & hc & hd & ->). destruct (in_list _ _ _ _ _ _ e1 hc) as (d' & hl').
  exists c, d. split; [|reflexivity]. assert (d' = d) as <-; [|exact hl'].
  destruct hl' as (? & ? & ? & (_ & hd' & _) & _). congruence.
Qed.
Theorem C45_method_sound_partial : forall fuel b path p m name dm i di l b' f r,
  symbol_under_cursor path p b = Done (Some (m, name)) b -> data (b_arena b) m = Some dm -> y_kind dm = KMethod ->
  parent_of (b_arena b) m = Some (Some i) -> data (b_arena b) i = Some di -> y_kind di = KInterface ->
  goto_implementation fuel path p b = Done (Some l) b' -> In (f, r) l ->
  exists c d j dj, listed b i f c d /\ first_named (b_arena b) c name j dj /\ r = y_sel dj.
Proof.
  intros fuel b path p m name dm i di l b' f r hs hdm hkm hp hdi hk e h.
  destruct (at_method _ _ _ _ _ _ _ _ _ _ _ hs hdm hkm hp hdi hk e) as (cs & e1 & hl). apply hl in h.
  destruct h as (c & j & dj & hc & hj & ->). destruct (in_list _ _ _ _ _ _ e1 hc) as (d & hl').
  exists c, d, j, dj. auto.
Qed.

(** Both together, for an interface that no other interface is built on.  If the
    names after [implements] of the class stand for known symbols that do not
    inherit from anything, the class is in the answer only if one of them stands
    for the interface. *)
Definition plain_clause (b : bst) (file : N) (d : Symbol) : Prop :=
  forall tr, In tr (type_names d) ->
    (exists tip, tref_tip tr = Some tip /\ to_lowercase tip = to_lowercase (sym_name d)) \/
    (exists w full x dx, asks (resolver_at b file) tr file w full /\
       findS (to_lowercase (joined full)) (b_global b) = Some x /\ data (b_arena b) x = Some dx /\ y_inherits dx = None).
Theorem C45_exact_partial : forall fuel b path p i name di l b' f r,
  symbol_under_cursor path p b = Done (Some (i, name)) b -> data (b_arena b) i = Some di -> y_kind di = KInterface ->
  goto_implementation fuel path p b = Done (Some l) b' -> In (f, r) l ->
  exists c d file fd, indexed_class b c d /\ file_of (b_arena b) c file /\ data (b_arena b) file = Some fd /\
    f = sym_name fd /\ r = y_sel d /\
    (plain_clause b file d -> exists w full, implements b c file d w full /\
       findS (to_lowercase (joined full)) (b_global b) = Some i).
Proof.
  intros fuel b path p i name di l b' f r hs hdi hk e h.
  destruct (at_interface _ _ _ _ _ _ _ _ _ hs hdi hk e) as (cs & e1 & hl). apply hl in h.
  destruct h as (c & d & hc & hd & ->). destruct (r_implementing fuel b i _ _ e1) as [_ [h1 _]].
  destruct (h1 _ _ hc) as (d' & file & fd & tr & hic & hf & hfd & -> & ht & (o & s & er & hcount)).
  assert (d' = d) as -> by (destruct hic as (_ & hd' & _); congruence).
  exists c, d, file, fd. split; [exact hic|]. split; [exact hf|]. split; [exact hfd|]. split; [reflexivity|]. split; [reflexivity|].
  intros hplain. apply filter_In in ht. destruct ht as [hin htip]. fold (type_names d) in hin.
  destruct (hplain tr hin) as [(tip & e2 & e3)|(w & full & x & dx & ha & hx & hdx & hno)].
  { rewrite e2 in htip. unfold normalized_name in htip. rewrite e3 in htip.
    destruct (str_eqb_spec (to_lowercase (sym_name d)) (to_lowercase (sym_name d))); [discriminate htip|congruence]. }
  exists w, full. destruct fuel as [|fuel]; [discriminate er|].
  pose proof (answer_of _ _ _ _ _ _ _ _ _ ha er) as ho. cbn [r_global resolver_at resolver_new] in ho. rewrite hx in ho.
  destruct ho as [-> _]. split.
  - exists tr. split; [exact hin|]. split; [exact ha|]. rewrite (tip_of _ _ (as_spells _ _ _ _ _ ha)) in htip.
    unfold normalized_name in htip. intros e3. rewrite e3 in htip.
    destruct (str_eqb_spec (to_lowercase (sym_name d)) (to_lowercase (sym_name d))); [discriminate htip|congruence].
  - destruct (N.eqb_spec x i) as [ei|ne]; [rewrite <- ei; exact hx|exfalso]. destruct hcount as (d1 & s' & hd1 & hch).
    rewrite hdx in hd1. injection hd1 as <-. cbn [is_child_of] in hch. unfold parent_nodes in hch. rewrite hno in hch.
    cbn [efold] in hch. unfold ebind at 1, eret at 1 in hch.
    assert (hnil : @h_order HH N [] = []).
    { apply Permutation_nil. apply Permutation_sym. apply h_perm. }
    rewrite hnil in hch. cbn in hch. discriminate hch.
Qed.

(** ** Interfaces above other interfaces *)

(** Where a name is written, as far as the code tells places apart: the file of
    the symbol [anchor] that it is looked up at, and the range. *)
Definition place (a : arena Symbol) (tr : TypeRef) (anchor : N) : option unique_range :=
  match top a anchor, tref_range tr with Some f, Some r => Some (f, r) | _, _ => None end.
(** Read at [x], the name stands for the symbol [n]. *)
Definition known_as (b : bst) (file x : N) (r : SRef) (n : N) : Prop :=
  exists w full, asks (resolver_at b file) (sr_type r) x w full /\ findS (to_lowercase (joined full)) (b_global b) = Some n.
(** [r] is one of the names after [extends] of [y] and stands for [n]. *)
Definition clause (b : bst) (file x y : N) (r : SRef) (n : N) : Prop :=
  exists dy, data (b_arena b) y = Some dy /\ In r (the_list (y_inherits dy)) /\ known_as b file x r n.
Definition parent_via (b : bst) (file x y n : N) : Prop := exists r, clause b file x y r n.
(** Everything above [x] is known; different parents of one symbol have different
    names, and no two names with different meanings are at the same place. *)
Record clear_above (b : bst) (file : N) (tr : TypeRef) (x : N) : Prop := {
  ca_known : forall y dy r, clos_refl_trans N (parent_via b file x) x y -> data (b_arena b) y = Some dy ->
    In r (the_list (y_inherits dy)) -> exists n, known_as b file x r n;
  ca_names : forall y n m dn dm, clos_refl_trans N (parent_via b file x) x y -> parent_via b file x y n -> parent_via b file x y m ->
    data (b_arena b) n = Some dn -> data (b_arena b) m = Some dm -> to_lowercase (sym_name dn) = to_lowercase (sym_name dm) -> n = m;
  ca_places : forall y r n y' r' n', clos_refl_trans N (parent_via b file x) x y -> clos_refl_trans N (parent_via b file x) x y' ->
    clause b file x y r n -> clause b file x y' r' n' ->
    place (b_arena b) (sr_type r) x = place (b_arena b) (sr_type r') x -> n = n';
  ca_clause : forall y r n, clos_refl_trans N (parent_via b file x) x y -> clause b file x y r n ->
    place (b_arena b) (sr_type r) x <> place (b_arena b) tr file
}.

Lemma unique_spec : forall a b, reflect (a = b) (unique_eqb a b).
Proof.
  intros [f r] [g q]. unfold unique_eqb. cbn [fst snd]. destruct (N.eqb_spec f g) as [->|n]; cbn [andb].
  - destruct (range_eqb r q) eqn:e; constructor; [apply range_eqb_eq in e; congruence|].
    intros [= ->]. clear -e. destruct q. unfold range_eqb in e. cbn in e. rewrite !N.eqb_refl in e. discriminate e.
  - constructor. congruence.
Qed.

Section Above.
Variables (b : bst) (file x : N).

Definition kept (s : rst) : Prop := r_arena s = b_arena b /\ r_global s = b_global b.
Definition told (s : rst) (p : option unique_range) (n : N) : Prop :=
  forall k, p = Some k -> find unique_eqb k (r_cache s) = None \/ find unique_eqb k (r_cache s) = Some (Some n).

Lemma one_lookup : forall fuel r a w full n s o s1, asks (resolver_at b file) r a w full ->
  findS (to_lowercase (joined full)) (b_global b) = Some n ->
  kept s -> told s (place (b_arena b) r a) n -> resolve_type_ref fuel r a false s = Done o s1 ->
  o = Some n /\ kept s1 /\
  forall k, find unique_eqb k (r_cache s1) = find unique_eqb k (r_cache s) \/
            (Some k = place (b_arena b) r a /\ find unique_eqb k (r_cache s1) = Some (Some n)).
Proof.
  intros fuel r a w full n s o s1 ha hg (ka & kg) ht e. destruct fuel as [|fuel]; [discriminate e|].
  pose proof ha as [hw hs hp (f & fd & d & rg & imports & ns & h1 & h2 & h3 & h4 & h5 & h6 & h7 & h8 & h9 & h10)].
  change (r_arena (resolver_at b file)) with (b_arena b) in *.
  assert (hpl : place (b_arena b) r a = Some (f, rg)) by (unfold place; rewrite h1, h4; reflexivity).
  destruct (spells_first _ _ hs) as (r1 & r2 & r3).
  destruct (ht _ hpl) as [q|q].
  - assert (ha' : asks s r a w full).
    { constructor; rewrite ?ka; try assumption. exists f, fd, d, rg, imports, ns. repeat (split; [assumption|]). assumption. }
    destruct (resolve_step fuel r a false s w full ha') as (f' & fd' & rg' & a1 & a2 & a3 & e').
    rewrite e' in e. clear e'. rewrite ka in a1. rewrite h1 in a1. injection a1 as <-. rewrite h4 in a3. injection a3 as <-.
    rewrite kg, hg in e. unfold ebind at 1 in e. unfold eret at 1 in e. unfold ebind at 1 in e. unfold eret at 1 in e.
    unfold ebind at 1 in e. unfold e_data in e. cbn [the_arena rst_arena] in e.
    destruct (data (r_arena s) n) as [dn|] eqn:edn; [|discriminate e].
    destruct (fqdn_matches dn (joined full)); unfold ebind, eret, note, cache_put, emod in e; injection e as <- <-;
      (split; [reflexivity|]; split; [split; assumption|]); intros k; cbn [r_cache]; rewrite (find_put _ unique_spec);
      destruct (unique_spec k (f, rg)) as [->|]; auto.
  - cbn [resolve_type_ref] in e. rewrite r2, r3 in e. cbn [orb] in e.
    unfold ebind at 1 in e. unfold e_top in e. cbn [the_arena rst_arena] in e. rewrite ka, h1 in e.
    unfold ebind at 1 in e. unfold e_data at 1 in e. cbn [the_arena rst_arena] in e. rewrite ka, h2 in e.
    unfold ebind at 1 in e. rewrite r1 in e. unfold eopt at 1, eret at 1 in e.
    unfold ebind at 1 in e. unfold eopt at 1, eret at 1 in e.
    unfold ebind at 1 in e. rewrite h4 in e. unfold eopt at 1, eret at 1 in e.
    unfold ebind at 1 in e. unfold eget at 1 in e. rewrite q in e.
    injection e as <- <-. split; [reflexivity|]. split; [split; assumption|]. auto.
Qed.

Variable tr : TypeRef.
Hypothesis clear : clear_above b file tr x.
Notation up := (clos_refl_trans N (parent_via b file x) x).
Definition ready (s : rst) : Prop := kept s /\
  forall y r n, up y -> clause b file x y r n -> told s (place (b_arena b) (sr_type r) x) n.

Lemma lookup_ready : forall fuel y r n s o s1, up y -> clause b file x y r n -> ready s ->
  resolve_type_ref fuel (sr_type r) x false s = Done o s1 -> o = Some n /\ ready s1.
Proof.
  intros fuel y r n s o s1 hy hc (k & ht) e. pose proof hc as (dy & h1 & h2 & w & full & ha & hg).
  destruct (one_lookup fuel _ _ _ _ _ _ _ _ ha hg k (ht _ _ _ hy hc) e) as (-> & k1 & hk). split; [reflexivity|].
  split; [exact k1|]. intros y' r' n' hy' hc' p hp. destruct (hk p) as [q|(q & q')].
  - rewrite q. exact (ht _ _ _ hy' hc' p hp).
  - right. rewrite q'. assert (n = n') as ->; [|reflexivity].
    eapply (ca_places _ _ _ _ clear); [exact hy|exact hy'|exact hc|exact hc'|]. rewrite hp, <- q. reflexivity.
Qed.

Lemma parents_ready : forall fuel y dy s m s1, up y -> data (b_arena b) y = Some dy -> ready s ->
  parent_nodes (resolve_type_ref fuel) dy x s = Done m s1 ->
  ready s1 /\ (forall k n, In (k, n) m -> parent_via b file x y n) /\
  (forall n, parent_via b file x y n -> exists k, In (k, n) m).
Proof.
  intros fuel y dy s m s1 hy hd hr e. unfold parent_nodes in e. fold (the_list (y_inherits dy)) in e.
  assert (G : forall rs acc s, NoDup (keys acc) -> (forall r, In r rs -> In r (the_list (y_inherits dy))) -> ready s ->
    (forall k n, find str_eqb k acc = Some n -> parent_via b file x y n /\
       exists dn, data (b_arena b) n = Some dn /\ k = normalized_name dn) ->
    forall m s1, efold (fun m r =>
      elet o <- resolve_type_ref fuel (sr_type r) x false in
      match o with
      | None => eret m
      | Some node => elet d <- e_data node in eret (put str_eqb (normalized_name d) node m)
      end) acc rs s = Done m s1 ->
    ready s1 /\ (forall k n, find str_eqb k m = Some n -> parent_via b file x y n /\
       exists dn, data (b_arena b) n = Some dn /\ k = normalized_name dn) /\
    (forall k n, find str_eqb k acc = Some n -> find str_eqb k m = Some n) /\
    (forall r n, In r rs -> known_as b file x r n -> exists k, find str_eqb k m = Some n) /\ NoDup (keys m)).
  { clear e hr s m s1. induction rs as [|r rs IH]; intros acc s nd hin hr hacc m s1 e; cbn [efold] in e.
    - injection e as <- <-. split; [exact hr|]. split; [exact hacc|]. split; [auto|]. split; [intros r n []|exact nd].
    - unfold ebind at 1 2 in e.
      destruct (resolve_type_ref fuel (sr_type r) x false s) as [o s2| |] eqn:er; try discriminate e.
      destruct (ca_known _ _ _ _ clear y dy r hy hd (hin r (or_introl eq_refl))) as (n & hn).
      assert (hc : clause b file x y r n) by (exists dy; split; [exact hd|]; split; [apply hin; left; reflexivity|exact hn]).
      destruct (lookup_ready fuel y r n s o s2 hy hc hr er) as (-> & hr2).
      unfold ebind at 1 in e. unfold e_data in e. cbn [the_arena rst_arena] in e. destruct hr2 as ((ka & kg) & ht).
      rewrite ka in e. destruct (data (b_arena b) n) as [dn|] eqn:edn; [|discriminate e]. unfold eret at 1 in e.
      apply IH in e; [|apply nodup_put; [apply str_eqb_spec|exact nd]|intros; apply hin; right; assumption|split; [split|]; assumption|].
      + destruct e as (g1 & g2 & g3 & g4 & gn).
        assert (hnm : find str_eqb (normalized_name dn) m = Some n)
          by (apply g3; rewrite (find_put _ str_eqb_spec); destruct (str_eqb_spec (normalized_name dn) (normalized_name dn)); congruence).
        split; [exact g1|]. split; [exact g2|]. split.
        * intros k n' hk. destruct (str_eqb_spec k (normalized_name dn)) as [->|ne].
          -- destruct (hacc _ _ hk) as (hv & dn' & hd' & hq). assert (n' = n) as ->; [|exact hnm].
             eapply (ca_names _ _ _ _ clear y); eauto. exists r. exact hc.
          -- apply g3. rewrite (find_put _ str_eqb_spec). destruct (str_eqb_spec k (normalized_name dn)); congruence.
        * split; [|exact gn]. intros r' n' [<-|h] hk; [|eauto]. exists (normalized_name dn).
          assert (n' = n) as ->; [|exact hnm].
          eapply (ca_places _ _ _ _ clear y r n' y r n); eauto. exists dy. split; [exact hd|]. split; [apply hin; left; reflexivity|exact hk].
      + intros k n'. rewrite (find_put _ str_eqb_spec). destruct (str_eqb_spec k (normalized_name dn)) as [->|ne].
        * intros [= <-]. split; [exists r; exact hc|]. exists dn. auto.
        * apply hacc. }
  destruct (G _ [] s ltac:(constructor) (fun r h => h) hr ltac:(intros k n q; discriminate q) _ _ e) as (g1 & g2 & _ & g4 & gn).
  split; [exact g1|]. split.
  - intros k n h. apply g2 with (k := k). apply in_find; [apply str_eqb_spec|exact gn|exact h].
  - intros n (r & dy' & q1 & q2 & q3). rewrite hd in q1. injection q1 as <-. destruct (g4 r n q2 q3) as (k & hk).
    exists k. eapply find_in; [apply str_eqb_spec|exact hk].
Qed.

Lemma finds_above : forall i fuel y dy s yes s1, up y -> data (b_arena b) y = Some dy -> ready s ->
  is_child_of fuel dy x i s = Done yes s1 ->
  ready s1 /\ (clos_trans N (parent_via b file x) y i -> yes = true).
Proof.
  intros i. induction fuel as [|fuel IH]; intros y dy s yes s1 hy hd hr e; [discriminate e|]. cbn [is_child_of] in e.
  unfold ebind at 1 in e. destruct (parent_nodes (resolve_type_ref fuel) dy x s) as [m s2| |] eqn:em; try discriminate e.
  destruct (parents_ready fuel y dy s m s2 hy hd hr em) as (h1 & h2 & h3).
  unfold ebind at 1 in e.
  match type of e with match ?m with _ => _ end = _ => destruct m as [o s3| |] eqn:eo; try discriminate e end.
  injection e as <- <-.
  assert (q2 : forall k n, In (k, n) (h_order m) -> parent_via b file x y n)
    by (intros k n h; eapply h2; eapply Permutation_in; [apply h_perm|exact h]).
  assert (q3 : forall n, parent_via b file x y n -> exists k, In (k, n) (h_order m)).
  { intros n h. destruct (h3 n h) as (k & hk). exists k. eapply Permutation_in; [apply Permutation_sym, h_perm|exact hk]. }
  assert (G : forall (l : list (str * N)) s2 o s3, (forall k n, In (k, n) l -> parent_via b file x y n) -> ready s2 ->
    efind (fun p : str * N =>
        if snd p =? i then eret (Some tt)
        else
          elet d <- e_data (snd p) in
          elet b <- is_child_of fuel d x i in
          eret (if b then Some tt else None)) l s2 = Done o s3 ->
    ready s3 /\ ((exists k n, In (k, n) l /\ (n = i \/ clos_trans N (parent_via b file x) n i)) -> o <> None)).
  { clear em eo hr h1 h2 h3 q2 q3 m o s s2 s3. induction l as [|[k n] l IHl]; intros s2 o s3 hl hr e; cbn [efind] in e.
    - injection e as <- <-. split; [exact hr|]. intros (k & n & [] & _).
    - unfold ebind at 1 in e. cbn [snd] in e. destruct (N.eqb_spec n i) as [->|ne].
      + unfold eret in e. injection e as <- <-. split; [exact hr|]. intros _. discriminate.
      + unfold ebind at 1 in e. unfold e_data in e. cbn [the_arena rst_arena] in e. pose proof hr as ((ka & kg) & ht).
        rewrite ka in e. destruct (data (b_arena b) n) as [dn|] eqn:edn; [|discriminate e].
        unfold ebind at 1 in e. destruct (is_child_of fuel dn x i s2) as [yes s4| |] eqn:ec; try discriminate e.
        assert (hn : up n) by (eapply rt_trans; [exact hy|apply rt_step; eapply hl; left; reflexivity]).
        destruct (IH n dn s2 yes s4 hn edn hr ec) as (hr4 & hyes). unfold eret at 1 in e. destruct yes.
        * unfold eret in e. injection e as <- <-. split; [exact hr4|]. intros _. discriminate.
        * destruct (IHl s4 o s3) as (g1 & g2); [intros; eapply hl; right; eassumption|exact hr4|exact e|].
          split; [exact g1|]. intros (k' & n' & [[= <- <-]|h] & hc); [|apply g2; eauto].
          destruct hc as [hc|hc]; [congruence|]. specialize (hyes hc). discriminate hyes. }
  destruct (G _ _ _ _ q2 h1 eo) as (g1 & g2). split; [exact g1|]. intros hc.
  assert (o <> None); [|destruct o; [reflexivity|congruence]]. apply g2.
  apply clos_trans_t1n in hc. inversion hc as [z h|z z' h h']; subst.
  - destruct (q3 _ h) as (k & hk). exists k, i. auto.
  - destruct (q3 _ h) as (k & hk). exists k, z. split; [exact hk|]. right. apply clos_t1n_trans. assumption.
Qed.
End Above.

(** Completeness for interfaces that are built on other interfaces: the answer
    has every class that names an interface [x] from which the interface can be
    reached by any number of [extends].  (Missing: names above [x] that are
    unknown or would mean something else when they are read in the file of [x],
    which is what the code does, and the collisions of [C45_refuted_end].) *)
Theorem C45_above_partial : forall fuel b path p i name di l b' c d file fd tr w full x dx,
  symbol_under_cursor path p b = Done (Some (i, name)) b -> data (b_arena b) i = Some di -> y_kind di = KInterface ->
  goto_implementation fuel path p b = Done (Some l) b' ->
  indexed_class b c d -> file_of (b_arena b) c file -> data (b_arena b) file = Some fd ->
  In tr (type_names d) -> asks (resolver_at b file) tr file w full ->
  to_lowercase (last_word w) <> to_lowercase (sym_name d) ->
  findS (to_lowercase (joined full)) (b_global b) = Some x -> data (b_arena b) x = Some dx ->
  clear_above b file tr x -> clos_refl_trans N (parent_via b file x) x i ->
  In (sym_name fd, y_sel d) l.
Proof.
  intros fuel b path p i name di l b' c d file fd tr w full x dx hs hdi hk e hc hf hfd hin ha hne hg hdx hcl hup.
  destruct (at_interface _ _ _ _ _ _ _ _ _ hs hdi hk e) as (cs & e1 & hl). apply hl.
  destruct (r_implementing fuel b i _ _ e1) as [_ [_ h2]].
  exists c, d. split; [|split; [apply hc|reflexivity]]. eapply h2; eauto.
  { eapply candidate; eauto. apply (as_spells _ _ _ _ _ ha). }
  intros yes (o & s & er & h).
  destruct (one_lookup b file fuel tr file w full x (resolver_at b file) o s ha hg) as (-> & kp & hcache); auto.
  { split; reflexivity. }
  { intros k _. left. reflexivity. }
  destruct (N.eqb_spec x i) as [->|ne]; [exact h|]. destruct h as (d1 & s' & hd1 & hch). rewrite hdx in hd1. injection hd1 as <-.
  assert (hr : ready b file x s).
  { split; [exact kp|]. intros y r n hy hcy k hkp. destruct (hcache k) as [q|(q & _)]; [left; rewrite q; reflexivity|].
    exfalso. apply (ca_clause _ _ _ _ hcl y r n hy hcy). congruence. }
  destruct (finds_above b file x tr hcl i fuel x dx s yes s' (rt_refl _ _ _) hdx hr hch) as (_ & hyes). apply hyes.
  apply clos_rt_rt1n in hup. inversion hup as [|z z' h1 h3]; subst; [congruence|].
  clear - h1 h3. apply clos_rt1n_rt in h3. revert h1 h3. generalize (parent_via b file x). intros R h1 h3.
  apply clos_rt_rtn1 in h3. induction h3 as [|u v h h3 IH]; [apply t_step; exact h1|eapply t_trans; [exact IH|apply t_step; exact h]].
Qed.

End C45.

(** * Cases *)

(** An interface, and a class of another namespace that implements it under an
    imported name *)
Definition state45 : bst :=
  indexed "<?php interface I { function m(); }"
    "<?php namespace U; use I as K; class C implements K { function M() { } }".

Lemma asks45 : exists tr d, data (b_arena state45) 5 = Some d /\ In tr (type_names d) /\
  asks (resolver_at state45 3) tr 3 (Written false (lit "K") []) [lit "I"] /\ to_lowercase (sym_name d) = lit "c".
Proof.
  assert (r : reachable state45) by apply state_after_reachable.
  eexists. eexists. split; [vm_compute; reflexivity|]. split; [right; left; reflexivity|]. split; [|vm_compute; reflexivity].
  constructor.
  - change (r_arena (resolver_at state45 3)) with (b_arena state45). apply (wi_wf _ (reachable_winv _ r)).
  - vm_compute. apply spells_relative; [split; reflexivity|constructor].
  - vm_compute. intros [e|[e|[e|[]]]]; discriminate.
  - exists 3. eexists. eexists. eexists. exists [(lit "K", [lit "I"])], [lit "U"].
    split; [vm_compute; reflexivity|]. split; [vm_compute; reflexivity|]. split; [vm_compute; reflexivity|].
    split; [vm_compute; reflexivity|]. split; [vm_compute; reflexivity|].
    split; [|split; [|split; [|split]]].
    + vm_compute. constructor; [|constructor]. split; [|reflexivity]. eexists. eexists. split; [reflexivity|].
      apply spells_relative; [split; reflexivity|]. constructor.
    + repeat constructor; intros [].
    + eapply (placed_file _ _ _ _ [4; 5] 4); [vm_compute; reflexivity|vm_compute; reflexivity|left; reflexivity
        |vm_compute; reflexivity|reflexivity|].
      intros i d [<-|[<-|[]]] hd hk; vm_compute in hd; injection hd as <-; [reflexivity|discriminate hk].
    + repeat constructor. discriminate.
    + apply (means_imported _ _ (lit "K") [] (lit "K") [lit "I"]); [left; reflexivity|reflexivity].
Qed.

Example C45_case : reachable state45 /\
  (exists di d fd l, symbol_under_cursor pA (mkPos 0 17) state45 = Done (Some (1, lit "I")) state45 /\
    data (b_arena state45) 1 = Some di /\ y_kind di = KInterface /\
    goto_implementation 30 pA (mkPos 0 17) state45 = Done (Some l) state45 /\
    indexed_class state45 5 d /\ file_of (b_arena state45) 5 3 /\ data (b_arena state45) 3 = Some fd /\
    implements state45 5 3 d (Written false (lit "K") []) [lit "I"] /\
    findS (to_lowercase (joined [lit "I"])) (b_global state45) = Some 1 /\
    plain_clause state45 3 d /\
    l = [(pB, mkRng (mkPos 0 37) (mkPos 0 38))]) /\
  (exists dm dj l, symbol_under_cursor pA (mkPos 0 30) state45 = Done (Some (2, lit "m")) state45 /\
    data (b_arena state45) 2 = Some dm /\ y_kind dm = KMethod /\ parent_of (b_arena state45) 2 = Some (Some 1) /\
    first_named (b_arena state45) 5 (lit "m") 7 dj /\
    goto_implementation 30 pA (mkPos 0 30) state45 = Done (Some l) state45 /\
    l = [(pB, mkRng (mkPos 0 63) (mkPos 0 64))]).
Proof.
  split; [apply state_after_reachable|]. destruct asks45 as (tr & d & hd & hin & ha & hn). split.
  - eexists. exists d. eexists. eexists.
    split; [vm_compute; reflexivity|]. split; [vm_compute; reflexivity|]. split; [vm_compute; reflexivity|].
    split; [vm_compute; reflexivity|].
    assert (hc : indexed_class state45 5 d).
    { split; [exists (lit "u\c"); vm_compute; auto|]. split; [exact hd|]. vm_compute in hd. injection hd as <-. reflexivity. }
    split; [exact hc|].
    split.
    { exists [5], []. eexists. split; [vm_compute; reflexivity|]. split; [vm_compute; reflexivity|]. split; [vm_compute; reflexivity|].
      intros j dj [<-|[]] hj. vm_compute in hj. injection hj as <-. discriminate. }
    split; [vm_compute; reflexivity|].
    split; [exists tr; split; [exact hin|]; split; [exact ha|]; rewrite hn; vm_compute; discriminate|].
    split; [vm_compute; reflexivity|]. split; [|vm_compute; reflexivity].
    intros tr' hin'. vm_compute in hd. injection hd as <-. destruct hin' as [<-|[<-|[]]].
    + left. eexists. split; [vm_compute; reflexivity|reflexivity].
    + right. destruct hin as [<-|[<-|[]]].
      * exfalso. pose proof (tip_of _ _ (as_spells _ _ _ _ _ ha)) as e. vm_compute in e. discriminate e.
      * exists (Written false (lit "K") []), [lit "I"], 1. eexists. split; [exact ha|].
        split; [vm_compute; reflexivity|]. split; [vm_compute; reflexivity|reflexivity].
  - eexists. eexists. eexists.
    split; [vm_compute; reflexivity|]. split; [vm_compute; reflexivity|]. split; [vm_compute; reflexivity|].
    split; [vm_compute; reflexivity|]. split; [|split; vm_compute; reflexivity].
    exists [6], []. split; [vm_compute; reflexivity|]. split; [vm_compute; reflexivity|]. split; [vm_compute; reflexivity|].
    intros x dx [<-|[]] hx. vm_compute in hx. injection hx as <-. discriminate.
Qed.

(** Two interfaces between the class and the interface *)
Definition above45 : bst :=
  indexed "<?php interface I {} interface J extends I {} interface K extends J {}" "<?php class C implements K {}".

Lemma known_same : forall b file x r n m s1, known_as b file x r n ->
  resolve_type_ref 30 (sr_type r) x false (resolver_at b file) = Done (Some m) s1 -> n = m.
Proof.
  intros b file x r n m s1 (w & full & ha & hg) e. pose proof (answer_of _ _ _ _ _ _ _ _ _ ha e) as h.
  cbn [r_global resolver_at resolver_new] in h. rewrite hg in h. destruct h as (h & _). congruence.
Qed.

Lemma asks_global : forall b file tr anchor t ts w f fd d rg ks, reachable b -> top (b_arena b) anchor = Some f ->
  data (b_arena b) f = Some fd -> data (b_arena b) anchor = Some d -> tref_range tr = Some rg ->
  the_list (y_imports fd) = [] -> y_ns d = None -> kids (b_arena b) f = Some ks ->
  forallb (fun i => match data (b_arena b) i with Some d => negb (kind_eqb (y_kind d) KNamespace) | None => true end) ks = true ->
  tr = mkTypeRef [t] ts -> word t w -> ~ In w (map lit ["self"; "static"; "parent"]) ->
  asks (resolver_at b file) tr anchor (Written false w []) [w].
Proof.
  intros b file tr anchor t ts w f fd d rg ks hr h1 h2 h3 h4 h5 h6 h7 h8 -> h9 h10. constructor.
  - change (r_arena (resolver_at b file)) with (b_arena b). apply (wi_wf _ (reachable_winv _ hr)).
  - apply spells_relative; [exact h9|constructor].
  - exact h10.
  - exists f, fd, d, rg, [], []. change (r_arena (resolver_at b file)) with (b_arena b).
    repeat (split; [first [assumption|reflexivity]|]). split; [fold (the_list (y_imports fd)); rewrite h5; constructor|].
    split; [constructor|]. split; [|split; [constructor|]].
    + eapply placed_global; [exact h6|exact h7|]. intros i d' hi hd' hk. rewrite forallb_forall in h8. specialize (h8 i hi).
      rewrite hd', hk in h8. discriminate h8.
    + apply (means_local [] [] w []). intros alias path [].
Qed.

Ltac asks45 := eapply asks_global;
  [apply state_after_reachable|vm_compute; reflexivity|vm_compute; reflexivity|vm_compute; reflexivity|vm_compute; reflexivity
  |vm_compute; reflexivity|vm_compute; reflexivity|vm_compute; reflexivity|vm_compute; reflexivity|reflexivity
  |split; reflexivity|vm_compute; intros [e|[e|[e|[]]]]; discriminate e].

Example C45_above_case : reachable above45 /\
  exists di l d fd tr dx, symbol_under_cursor pA (mkPos 0 17) above45 = Done (Some (1, lit "I")) above45 /\
    data (b_arena above45) 1 = Some di /\ y_kind di = KInterface /\
    goto_implementation 30 pA (mkPos 0 17) above45 = Done (Some l) above45 /\
    indexed_class above45 5 d /\ file_of (b_arena above45) 5 4 /\ data (b_arena above45) 4 = Some fd /\
    In tr (type_names d) /\ asks (resolver_at above45 4) tr 4 (Written false (lit "K") []) [lit "K"] /\
    to_lowercase (lit "K") <> to_lowercase (sym_name d) /\
    findS (to_lowercase (joined [lit "K"])) (b_global above45) = Some 3 /\ data (b_arena above45) 3 = Some dx /\
    clear_above above45 4 tr 3 /\ clos_refl_trans N (parent_via above45 4 3) 3 1 /\
    In (pB, mkRng (mkPos 0 12) (mkPos 0 13)) l.
Proof.
  split; [apply state_after_reachable|]. eexists. eexists. eexists. eexists. eexists. eexists.
  split; [vm_compute; reflexivity|]. split; [vm_compute; reflexivity|]. split; [vm_compute; reflexivity|].
  split; [vm_compute; reflexivity|].
  split; [split; [exists (lit "c"); vm_compute; auto 6|split; vm_compute; reflexivity]|].
  split.
  { exists [5], []. eexists. split; [vm_compute; reflexivity|]. split; [vm_compute; reflexivity|]. split; [vm_compute; reflexivity|].
    intros j dj [<-|[]] hj. vm_compute in hj. injection hj as <-. discriminate. }
  split; [vm_compute; reflexivity|]. split; [right; left; reflexivity|]. split; [asks45|].
  split; [vm_compute; discriminate|]. split; [vm_compute; reflexivity|]. split; [vm_compute; reflexivity|].
  pose (key := fun p : option unique_range => opt_map (fun k => (fst k, start_col (snd k))) p).
  assert (c3 : forall r n, clause above45 4 3 3 r n -> n = 2 /\ key (place (b_arena above45) (sr_type r) 3) = Some (0, 66)).
  { intros r n (dy & h1 & h2 & h3). vm_compute in h1. injection h1 as <-. destruct h2 as [<-|[]].
    split; [eapply known_same; [exact h3|vm_compute; reflexivity]|vm_compute; reflexivity]. }
  assert (c2 : forall r n, clause above45 4 3 2 r n -> n = 1 /\ key (place (b_arena above45) (sr_type r) 3) = Some (0, 41)).
  { intros r n (dy & h1 & h2 & h3). vm_compute in h1. injection h1 as <-. destruct h2 as [<-|[]].
    split; [eapply known_same; [exact h3|vm_compute; reflexivity]|vm_compute; reflexivity]. }
  assert (c1 : forall r n, ~ clause above45 4 3 1 r n).
  { intros r n (dy & h1 & h2 & h3). vm_compute in h1. injection h1 as <-. destruct h2. }
  assert (up : forall y, clos_refl_trans N (parent_via above45 4 3) 3 y -> y = 3 \/ y = 2 \/ y = 1).
  { intros y h. apply clos_rt_rtn1 in h. induction h as [|y z (r & h) _ [->|[->| ->]]]; auto.
    - destruct (c3 _ _ h) as (-> & _). auto.
    - destruct (c2 _ _ h) as (-> & _). auto.
    - elim (c1 _ _ h). }
  assert (k3 : exists r, clause above45 4 3 3 r 2).
  { eexists. eexists. split; [vm_compute; reflexivity|]. split; [left; reflexivity|]. eexists. eexists.
    split; [asks45|vm_compute; reflexivity]. }
  assert (k2 : exists r, clause above45 4 3 2 r 1).
  { eexists. eexists. split; [vm_compute; reflexivity|]. split; [left; reflexivity|]. eexists. eexists.
    split; [asks45|vm_compute; reflexivity]. }
  split.
  { constructor.
    - intros y dy r hy hd hr. apply up in hy. destruct hy as [->|[->| ->]].
      + destruct k3 as (r' & dy' & q1 & q2 & q3). rewrite hd in q1. injection q1 as <-. vm_compute in hd. injection hd as <-.
        destruct hr as [<-|[]]. destruct q2 as [<-|[]]. eauto.
      + destruct k2 as (r' & dy' & q1 & q2 & q3). rewrite hd in q1. injection q1 as <-. vm_compute in hd. injection hd as <-.
        destruct hr as [<-|[]]. destruct q2 as [<-|[]]. eauto.
      + vm_compute in hd. injection hd as <-. destruct hr.
    - intros y n m dn dm hy (r & h) (r' & h') _ _ _. apply up in hy. destruct hy as [->|[->| ->]].
      + destruct (c3 _ _ h) as (-> & _). destruct (c3 _ _ h') as (-> & _). reflexivity.
      + destruct (c2 _ _ h) as (-> & _). destruct (c2 _ _ h') as (-> & _). reflexivity.
      + elim (c1 _ _ h).
    - intros y r n y' r' n' hy hy' h h' e. apply (f_equal key) in e. apply up in hy. apply up in hy'.
      destruct hy as [->|[->| ->]]; [destruct (c3 _ _ h) as (-> & q)|destruct (c2 _ _ h) as (-> & q)|elim (c1 _ _ h)];
      (destruct hy' as [->|[->| ->]]; [destruct (c3 _ _ h') as (-> & q')|destruct (c2 _ _ h') as (-> & q')|elim (c1 _ _ h')]);
      congruence.
    - intros y r n hy h e. apply (f_equal key) in e. apply up in hy.
      destruct hy as [->|[->| ->]]; [destruct (c3 _ _ h) as (_ & q)|destruct (c2 _ _ h) as (_ & q)|elim (c1 _ _ h)];
      rewrite q in e; vm_compute in e; discriminate e. }
  split; [|vm_compute; auto].
  destruct k3 as (r3 & h3). destruct k2 as (r2 & h2).
  eapply rt_trans; apply rt_step; [exists r3; exact h3|exists r2; exact h2].
Qed.

(** C45 does not hold.  The answer does not have a class that implements the
    interface through its parent, a class that has the same name as the interface,
    or a class in a namespace with braces; nor a method that the class inherits. *)
Definition answers (b : bst) (path : str) (p : Position) (l : list (str * Range)) : Prop :=
  reachable b /\ goto_implementation 30 path p b = Done (Some l) b.
Theorem C45_refuted :
  answers (indexed "<?php interface I {} class A implements I {}" "<?php class B extends A {}") pA (mkPos 0 17)
    [(pA, mkRng (mkPos 0 27) (mkPos 0 28))] /\
  answers (indexed "<?php interface I {}" "<?php namespace U; class I implements \I {}") pA (mkPos 0 17) [] /\
  answers (indexed "<?php namespace U { interface I {} class C implements I {} }" "<?php") pA (mkPos 0 31) [] /\
  answers (indexed "<?php interface I { function m(); } class P { function m() {} } class C extends P implements I {}" "<?php")
    pA (mkPos 0 30) [].
Proof. repeat apply conj; first [apply state_after_reachable|vm_compute; reflexivity]. Qed.

(** Nor does the request always end.  The names of the interfaces above one are
    remembered by the place they stand at, without the file: if [J extends K] and
    [K extends I] stand at the same place of two files, [K] is taken for its own
    parent, again and again. *)
Lemma child_turn : forall k d ctx i s p s' d',
  parent_nodes (resolve_type_ref k) d ctx s = Done [p] s' -> snd p <> i -> data (r_arena s') (snd p) = Some d' ->
  is_child_of k d' ctx i s' = Fuel -> is_child_of (S k) d ctx i s = Fuel.
Proof.
  intros k d ctx i s p s' d' h1 h2 h3 h4. cbn [is_child_of]. unfold ebind at 1. rewrite h1.
  cbn [h_order plain_hashing efind]. unfold ebind at 1. unfold ebind at 1. destruct (N.eqb_spec (snd p) i); [contradiction|].
  unfold ebind at 1. unfold e_data. cbn [the_arena rst_arena]. rewrite h3. unfold ebind at 1. rewrite h4. reflexivity.
Qed.
Definition loop45 : bst :=
  indexed "<?php interface J extends K {} class C implements J {}" "<?php interface K extends I {} interface I {}".
Definition symbol45 (i : N) : Symbol :=
  match data (b_arena loop45) i with Some d => d | None => plain_symbol KFile [] (mkRng (mkPos 0 0) (mkPos 0 0)) (mkRng (mkPos 0 0) (mkPos 0 0)) end.
Definition name45 : TypeRef := Eval vm_compute in match candidates (symbol45 2) with tr :: _ => tr | [] => no_prefix end.
Definition first45 : rst := Eval vm_compute in
  match resolve_type_ref 5 name45 0 false (resolver_at loop45 0) with Done _ s => s | _ => resolver_at loop45 0 end.
Definition second45 : rst := Eval vm_compute in
  match parent_nodes (resolve_type_ref 5) (symbol45 1) 1 first45 with Done _ s => s | _ => resolver_at loop45 0 end.
Definition symbolJ : Symbol := Eval vm_compute in symbol45 1.
Definition symbolK : Symbol := Eval vm_compute in symbol45 5.

Lemma loop45_turn : forall k, is_child_of k symbolK 1 6 second45 = Fuel.
Proof.
  induction k as [|k IH]; [reflexivity|]. destruct k as [|k]; [vm_compute; reflexivity|].
  eapply (child_turn _ _ _ _ _ (lit "k", 5) second45 symbolK); [vm_compute; reflexivity|discriminate|vm_compute; reflexivity|exact IH].
Qed.
Lemma loop45_never : forall k, is_child_of k symbolJ 1 6 first45 = Fuel.
Proof.
  intros [|k]; [reflexivity|]. destruct k as [|k]; [vm_compute; reflexivity|].
  eapply (child_turn _ _ _ _ _ (lit "k", 5) second45 symbolK); [vm_compute; reflexivity|discriminate|vm_compute; reflexivity|apply loop45_turn].
Qed.
Lemma names_loop : forall k b i c tr file x s d b', enclosing_file c b = Done file b' -> b' = b ->
  resolve_type_ref k tr file false (resolver_at b file) = Done (Some x) s -> x <> i -> data (r_arena s) x = Some d ->
  is_child_of k d x i s = Fuel -> names_interface k i c tr b = Fuel.
Proof.
  intros k b i c tr file x s d b' h1 -> h2 h3 h4 h5. unfold names_interface. unfold ebind at 1. rewrite h1.
  unfold ebind at 1. unfold with_resolver. fold (resolver_at b file). unfold ebind at 1. rewrite h2.
  destruct (N.eqb_spec x i); [contradiction|]. unfold ebind at 1. unfold e_data. cbn [the_arena rst_arena]. rewrite h4, h5.
  reflexivity.
Qed.
Lemma goto_loop : forall k b path p i name di g1 k0 c g2 d tr trs,
  symbol_under_cursor path p b = Done (Some (i, name)) b -> data (b_arena b) i = Some di -> y_kind di = KInterface ->
  b_global b = g1 ++ (k0, c) :: g2 ->
  Forall (fun kv => exists d, data (b_arena b) (snd kv) = Some d /\ y_kind d = KInterface) g1 ->
  data (b_arena b) c = Some d -> y_kind d = KClass -> candidates d = tr :: trs ->
  names_interface k i c tr b = Fuel -> goto_implementation k path p b = Fuel.
Proof.
  intros k b path p i name di g1 k0 c g2 d tr trs hs hdi hk hg hall hd hc ht hn.
  unfold goto_implementation. unfold ebind at 1. rewrite hs. unfold ebind at 1.
  unfold e_data at 1. cbn [the_arena bst_arena]. rewrite hdi, hk. unfold ebind at 1. unfold implementing_interfaces.
  unfold ebind at 1. unfold eget. rewrite hg. cbn [h_order plain_hashing].
  assert (H : forall acc, efold (fun acc kv =>
    elet d <- e_data (snd kv) in
    if negb (kind_eqb (y_kind d) KClass) then eret acc
    else
      elet o <- efind (names_interface k i (snd kv)) (candidates d) in
      eret (match o with Some file => acc ++ [(file, snd kv)] | None => acc end)) acc (g1 ++ (k0, c) :: g2) b = Fuel).
  { clear hg. induction hall as [|kv g1 (dk & h1 & h2) hall IH]; intros acc; cbn [app efold]; unfold ebind at 1; unfold ebind at 1;
      unfold e_data at 1; cbn [the_arena bst_arena snd].
    - rewrite hd, hc. change (kind_eqb KClass KClass) with true. cbn [negb]. unfold ebind at 1. rewrite ht. cbn [efind].
      unfold ebind at 1. rewrite hn. reflexivity.
    - rewrite h1, h2. change (kind_eqb KInterface KClass) with false. cbn [negb]. unfold eret at 1. exact (IH acc). }
  rewrite H. reflexivity.
Qed.
Theorem C45_refuted_end : exists b path p, reachable b /\ forall fuel, goto_implementation fuel path p b = Fuel.
Proof.
  exists loop45, pB, (mkPos 0 42). split; [apply state_after_reachable|]. intros k.
  assert (hn : names_interface k 6 2 name45 loop45 = Fuel).
  { destruct k as [|k]; [vm_compute; reflexivity|].
    eapply (names_loop _ _ _ _ _ 0 1 first45 symbolJ loop45); [vm_compute; reflexivity|reflexivity|vm_compute; reflexivity
      |discriminate|vm_compute; reflexivity|apply loop45_never]. }
  eapply (goto_loop k loop45 pB _ 6 (lit "I") _ [(lit "j", 1)] (lit "c") 2);
    [vm_compute; reflexivity|vm_compute; reflexivity|vm_compute; reflexivity|vm_compute; reflexivity| |vm_compute; reflexivity
    |vm_compute; reflexivity|vm_compute; reflexivity|exact hn].
  repeat constructor. eexists. split; vm_compute; reflexivity.
Qed.

Print Assumptions C45_direct_partial.
Print Assumptions C45_method_partial.
Print Assumptions C45_sound_partial.
Print Assumptions C45_method_sound_partial.
Print Assumptions C45_exact_partial.
Print Assumptions C45_above_partial.
Print Assumptions C45_refuted.
Print Assumptions C45_refuted_end.
