(** Property C55 for texts: every file that the server reads has declarations in
    the sense of Prop_Declarations.v. *)

From Verif Require Import Base Token TokenFacts Scanner Node NodeFacts DocBlock Parser ParserKinds Assoc AssocFacts Arena ArenaFacts
  Symbol EnvMonad EnvFacts Workspace WorkspaceFacts Resolver SpecNames ResolverFacts
  Backend BackendFacts SpecServer ServerInv IndexFacts Prop_Server Prop_Names Prop_Edits Prop_Declarations.
From Verif Require Prop_NoCrash.

Local Notation findS := (find str_eqb).
Local Existing Instance ascii_runtime | 9.
Local Existing Instance plain_hashing | 9.
Local Open Scope string_scope.
Local Open Scope N_scope.
Local Open Scope list_scope.

(** * Specification *)

(** The names of the namespaces are written without a separator at the ends, and
    the names of constants that are made with [define] are not numbers or
    keywords. *)
Definition named (n : Node) : Prop :=
  match n with
  | NNamespaceStatement _ (NTypeRef tr) | NNamespaceBlock _ (Some (NTypeRef tr)) _ => exists w ws, spells tr (Written false w ws)
  | NDefineStatement (NLiteral t) _ _ _ _ _ => t_label t <> None
  | _ => True
  end.
Definition names_written (nodes : list Node) : Prop := forall root n, In root nodes -> node_in n root -> named n.

(** * Proofs *)

Lemma refs_list : forall l, Forall is_ref l -> exists ts, l = map NTypeRef ts.
Proof.
  intros l h. induction h as [|n l (t & ->) hl (ts & ->)]; [exists []; reflexivity|]. exists (t :: ts). reflexivity.
Qed.
Lemma refs_opt : forall o, if_some (Forall is_ref) o -> exists ts, o = opt_map (map NTypeRef) ts.
Proof. intros [l|] h; [destruct (refs_list l h) as (ts & ->); exists (Some ts)|exists None]; reflexivity. Qed.
Lemma ref_opt : forall o, if_some is_ref o -> exists t, o = opt_map NTypeRef t.
Proof. intros [l|] h; [destruct h as (t & ->); exists (Some t)|exists None]; reflexivity. Qed.
Lemma image : forall A B (f : A -> B) (Q : B -> Prop) l, (forall b, Q b -> exists a, b = f a) -> Forall Q l -> exists k, l = map f k.
Proof.
  intros A B f Q l h F. induction F as [|b l hb hl (k & ->)]; [exists []; reflexivity|]. destruct (h b hb) as (a & ->). exists (a :: k). reflexivity.
Qed.
Lemma written : forall o, if_some is_type o -> if_some Deep o -> exists ts, type_written o ts.
Proof.
  intros [n|] h d; [|eexists; constructor].
  assert (D : forall k l, Deep (NDataType k l) -> exists ts, l = map NTypeRef ts).
  { intros k l hd. apply refs_list. apply (Deep_proper _ hd). }
  destruct n; try contradiction; cbn [if_some is_type] in h, d.
  - destruct (D _ _ d) as (ts & ->). eexists. constructor.
  - destruct n; try contradiction. destruct (D nullable type_refs) as (ts & ->); [|eexists; constructor].
    eapply Deep_sub; [exact d|left; reflexivity].
Qed.
Lemma doc_vars : forall o, if_some is_doc o -> if_some Deep o -> exists ts, vars_commented o ts.
Proof.
  intros [n|] h d; [|eexists; constructor]. destruct n; try contradiction. destruct (Deep_proper _ d) as (_ & _ & h3 & _).
  destruct (image _ _ (fun v : Token * option (list TypeRef) * str => NDocCommentVar (fst (fst v)) (snd (fst v)) (snd v)) _ _ (fun b hb => match hb with
    | ex_intro _ k (ex_intro _ t (ex_intro _ e q)) => ex_intro _ (k, t, e) q end) h3) as (vars & ->).
  eexists. constructor.
Qed.
Lemma doc_returns : forall o, if_some is_doc o -> if_some Deep o -> exists ts, returns_commented o ts.
Proof.
  intros [n|] h d; [|eexists; constructor]. destruct n; try contradiction. destruct (Deep_proper _ d) as (h1 & _).
  destruct (image _ _ (fun v : option (list TypeRef) * str => NDocCommentReturn (fst v) (snd v)) _ _ (fun b hb => match hb with
    | ex_intro _ t (ex_intro _ e q) => ex_intro _ (t, e) q end) h1) as (l & ->).
  eexists. constructor.
Qed.

Section Total.
Context {RT : Runtime}.

Definition fine (n : Node) : Prop := forall m, node_in m n -> proper m /\ named m.
Lemma fine_sub : forall n m, fine n -> node_in m n -> fine m.
Proof. intros n m h hm k hk. apply h. eapply node_in_trans; eassumption. Qed.
Lemma fine_part : forall n m, fine n -> In m (subnodes n) -> fine m.
Proof. intros n m h hm. eapply fine_sub; [exact h|]. eapply in_sub; [exact hm|constructor]. Qed.
Lemma fine_deep : forall n, fine n -> Deep n.
Proof. intros n h m hm. apply h. exact hm. Qed.
Lemma opt_deep_part : forall n (o : option Node), fine n -> (forall m, o = Some m -> In m (subnodes n)) -> if_some Deep o.
Proof. intros n [m|] h hm; [|exact I]. apply fine_deep. eapply fine_part; [exact h|]. apply hm. reflexivity. Qed.

Lemma declares_all_total : forall l, (forall n ns, In n l -> exists its ns', declares ns n its ns') -> forall ns, exists its ns', declare_all ns l its ns'.
Proof.
  induction l as [|n l IH]; intros h ns; [eexists _, _; constructor|].
  destruct (h n ns (or_introl eq_refl)) as (its & ns1 & d1). destruct (IH (fun m ns hm => h m ns (or_intror hm)) ns1) as (its2 & ns2 & d2).
  eexists _, _. econstructor; eassumption.
Qed.

Theorem declares_total : forall k n, (node_size n <= k)%nat -> fine n -> forall ns, exists its ns', declares ns n its ns'.
Proof.
  induction k as [|k IH]; intros n le f ns.
  { destruct n; cbn [node_size] in le; lia. }
  assert (S : forall m, (node_size m < node_size n)%nat -> node_in m n -> forall ns, exists its ns', declares ns m its ns').
  { intros m lm hm. apply IH; [lia|]. eapply fine_sub; eassumption. }
  assert (part : forall m, In m (subnodes n) -> forall ns, exists its ns', declares ns m its ns').
  { intros m hm. apply S; [apply Prop_NoCrash.subnode_size; exact hm|]. eapply in_sub; [exact hm|constructor]. }
  assert (kids : forall ns, exists its ns', declare_all ns (children n) its ns').
  { apply declares_all_total. intros m ns0 hm. apply S; [apply Prop_NoCrash.child_size|apply Prop_NoCrash.child_in]; exact hm. }
  destruct (f n (in_self n)) as [pr nm].
  destruct (declaring n) eqn:ed.
  2:{ destruct (kids ns) as (its & ns' & d). eexists _, _. apply d_other; eassumption. }
  destruct (importing n) eqn:ei.
  { eexists _, _. apply d_import. exact ei. }
  destruct n; try discriminate ed; try discriminate ei; clear ed ei.
  all: cbn [proper named] in pr, nm.
  all: match goal with |- exists _ _, declares _ ?n _ _ => match n with
    | NDocCommentProperty ?t _ _ => destruct (t_label t) as [x|] eqn:et; [eexists _, _; eapply d_magic; exact et|contradiction]
    | NConst _ _ _ => eexists _, _; apply d_const
    | NArrowFunction _ _ _ _ _ _ _ _ _ _ => destruct (kids ns) as (its & ns' & d); eexists _, _; apply d_arrow; exact d
    | NFunctionArgument ?ty _ _ _ _ _ ?doc _ =>
        let ts := fresh in let h := fresh in
        destruct (written ty (proj1 pr)) as (ts & h);
          [eapply opt_deep_part; [exact f|]; intros m ->; cbn; tauto
          |destruct doc as [dn|]; [destruct pr as (_ & q1 & q2 & q3 & ->)|]; eexists _, _; (eapply d_parameter; [exact h|constructor])]
    | NDefineStatement ?name _ _ _ _ _ =>
        destruct name; try (eexists _, _; apply d_define_unknown; intros; discriminate);
        let x := fresh in destruct (t_label token0) as [x|] eqn:et; [eexists _, _; eapply d_define; exact et|contradiction]
    | NNamespaceStatement _ _ => destruct pr as (tr & ->); destruct nm as (w & ws & sp); eexists _, _; eapply d_namespace; exact sp
    | NNamespaceBlock _ ?o ?block =>
       let its := fresh in let ns' := fresh in let d := fresh in
       destruct o as [r|]; cbn [if_some] in pr;
       [destruct pr as (tr & ->); destruct nm as (w & ws & sp);
        destruct (part block ltac:(cbn; tauto) (Some (joined (w :: ws)))) as (its & ns' & d); eexists _, _; eapply d_block; eassumption
       |destruct (part block ltac:(cbn; tauto) None) as (its & ns' & d); eexists _, _; eapply d_global; eassumption]
    | _ => idtac end end.
  - (* class *)
    destruct pr as (p1 & p2 & p3). destruct (refs_opt _ p1) as (il & ->). destruct (ref_opt _ p2) as (el & ->).
    destruct (declares_all_total (opt_list doc_comment)) with (ns := ns) as (its1 & ns1 & d1).
    { intros m ns0 hm. apply part. cbn [subnodes]. rewrite !in_app_iff. tauto. }
    match goal with |- exists _ _, declares _ (NClassStatement _ _ _ _ _ _ ?b _ _) _ _ => destruct (part b ltac:(cbn [subnodes]; rewrite ?in_app_iff; cbn [In]; tauto) ns1) as (its2 & ns2 & d2) end.
    eexists _, _. eapply d_class; eassumption.
  - (* trait *)
    match goal with |- exists _ _, declares _ (NTraitStatement _ _ ?b _) _ _ => destruct (part b ltac:(cbn [subnodes]; rewrite ?in_app_iff; cbn [In]; tauto) ns) as (its2 & ns2 & d2) end. eexists _, _. eapply d_trait; eassumption.
  - (* interface *)
    destruct pr as (p1 & p2). destruct (refs_opt _ p1) as (il & ->).
    match goal with |- exists _ _, declares _ (NInterface _ _ _ ?b _) _ _ => destruct (part b ltac:(cbn [subnodes]; rewrite ?in_app_iff; cbn [In]; tauto) ns) as (its2 & ns2 & d2) end. eexists _, _. eapply d_interface; eassumption.
  - (* constants *)
    destruct pr as (p1 & p2). destruct (image _ _ (fun c : Token * Node => NClassConstant visibility (fst c) (snd c)) _ _ (fun b hb => match hb with
      | ex_intro _ a (ex_intro _ v q) => ex_intro _ (a, v) q end) p1) as (l & ->).
    destruct (doc_vars _ p2) as (ts & hd).
    { eapply opt_deep_part; [exact f|]. intros m ->. cbn [subnodes opt_list]. rewrite !in_app_iff. cbn [In]. tauto. }
    eexists _, _. eapply d_constants. exact hd.
  - (* properties *)
    destruct pr as (p1 & p2 & p3). destruct (image _ _ (fun c : Token * option Node => NProperty (fst c) (snd c)) _ _ (fun b hb => match hb with
      | ex_intro _ a (ex_intro _ v q) => ex_intro _ (a, v) q end) p1) as (l & ->).
    destruct (doc_vars _ p2) as (ts & hd).
    { eapply opt_deep_part; [exact f|]. intros m ->. cbn [subnodes opt_list]. rewrite !in_app_iff. cbn [In]. tauto. }
    destruct (written _ p3) as (ts2 & ht).
    { eapply opt_deep_part; [exact f|]. intros m ->. cbn [subnodes opt_list]. rewrite !in_app_iff. cbn [In]. tauto. }
    eexists _, _. eapply d_properties; eassumption.
  - (* method *)
    destruct pr as ((op & args & cp & ret & body & d & ->) & p2).
    assert (ff : fine (NFunctionDefinitionStatement op args cp ret body d)) by (eapply fine_part; [exact f|cbn; tauto]).
    destruct (ff _ (in_self _)) as [(q1 & q2) _].
    destruct (written _ q1) as (ts & ht).
    { eapply opt_deep_part; [exact ff|]. intros m ->. cbn [subnodes opt_list]. rewrite !in_app_iff. cbn [In]. tauto. }
    destruct (doc_returns _ p2) as (ts2 & hd).
    { eapply opt_deep_part; [exact f|]. intros m ->. cbn [subnodes opt_list]. rewrite !in_app_iff. cbn [In]. tauto. }
    destruct (declares_all_total (attributes ++ [NFunctionDefinitionStatement op args cp ret body d])) with (ns := ns) as (its1 & ns1 & d1).
    { intros m ns0 hm. apply part. cbn [subnodes]. rewrite !in_app_iff in *. cbn [In] in *. tauto. }
    eexists _, _. eapply d_method; eassumption.
  - (* function *)
    destruct pr as (op & args & cp & ret & body & d & ->).
    assert (ff : fine (NFunctionDefinitionStatement op args cp ret body d)) by (eapply fine_part; [exact f|cbn; tauto]).
    destruct (ff _ (in_self _)) as [(q1 & q2) _].
    destruct (written _ q1) as (ts & ht).
    { eapply opt_deep_part; [exact ff|]. intros m ->. cbn [subnodes opt_list]. rewrite !in_app_iff. cbn [In]. tauto. }
    destruct (doc_returns _ q2) as (ts2 & hd).
    { eapply opt_deep_part; [exact ff|]. intros m ->. cbn [subnodes opt_list]. rewrite !in_app_iff. cbn [In]. tauto. }
    destruct (declares_all_total (attributes ++ [NFunctionDefinitionStatement op args cp ret body d])) with (ns := ns) as (its1 & ns1 & d1).
    { intros m ns0 hm. apply part. cbn [subnodes]. rewrite !in_app_iff in *. cbn [In] in *. tauto. }
    eexists _, _. eapply d_function; eassumption.
Qed.

(** Every tree that the parser makes has declarations. *)
Theorem syntax_declares : forall fuel text nodes, syntax fuel text = Some nodes -> names_written nodes ->
  exists its ns, declare_all None nodes its ns.
Proof.
  intros fuel text nodes e nw. pose proof (syntax_kinds _ _ _ e) as D.
  rewrite Forall_forall in D. apply declares_all_total. intros n ns hn.
  eapply declares_total; [apply le_n|]. intros m hm. split; [eapply D; eassumption|eapply nw; eassumption].
Qed.

(** Reading a file that is not open yields its declarations, whatever its text. *)
Theorem C55_texts_partial : forall `{H : Hashing} s s' fuel disk order path text nodes, reachable s ->
  findS path (b_open s) = None -> disk path = Some text -> syntax fuel text = Some nodes -> names_written nodes ->
  serve fuel disk order (EvWatched [path]) s = Done tt s' ->
  (exists its ns, declare_all None nodes its ns) /\
  forall its ns, declare_all None nodes its ns ->
    exists f l, findS path (b_files s') = Some f /\ kids (b_arena s') f = Some l /\ Forall2 (mirrors (b_arena s')) l its.
Proof.
  intros H s s' fuel disk order path text nodes r no ed hs nw e. split; [eapply syntax_declares; eassumption|].
  intros its ns D. eapply C55_watched_partial; eassumption.
Qed.
End Total.

(** * Non-vacuity *)

(** A text with mistakes in it *)
Definition text55b : string :=
  "<?php namespace A\B { class C extends { /** @var X|Y */ private ?int $p = ; function f(int $x, $y = [) : ?C { return } } define('K', 1) function g( { }".
Definition nodes55b : list Node := Eval vm_compute in match syntax 400 (lit text55b) with Some l => l | None => [] end.

Fixpoint restb (l : list Token) : bool :=
  match l with
  | [] => true
  | b :: t :: l' => tt_eqb (t_type b) TNamespaceSeparator && negb (is_some (t_label b)) && tt_eqb (t_type t) TIdentifier && is_some (t_label t) && restb l'
  | _ => false
  end.
Definition refb (l : list Token) : bool :=
  match l with t :: l' => tt_eqb (t_type t) TIdentifier && is_some (t_label t) && restb l' | [] => false end.
Definition namedb (n : Node) : bool :=
  match n with
  | NNamespaceStatement _ (NTypeRef tr) | NNamespaceBlock _ (Some (NTypeRef tr)) _ => refb (kind tr)
  | NDefineStatement (NLiteral t) _ _ _ _ _ => is_some (t_label t)
  | _ => true
  end.
Lemma restb_spells : forall k l, (List.length l <= k)%nat -> restb l = true -> exists ws, spells_rest l ws.
Proof.
  induction k as [|k IH]; intros [|b [|t l]] le h; try discriminate; try (exists []; constructor); cbn in le; try lia.
  cbn [restb] in h. apply andb_prop in h as [h h5]. apply andb_prop in h as [h h4]. apply andb_prop in h as [h h3]. apply andb_prop in h as [h1 h2].
  destruct (IH l ltac:(lia) h5) as (ws & sp). apply tt_eqb_eq in h1. apply tt_eqb_eq in h3.
  destruct (t_label b) eqn:e1; [discriminate|]. destruct (t_label t) as [w|] eqn:e2; [|discriminate].
  exists (w :: ws). apply rest_more; [split; assumption|split; assumption|exact sp].
Qed.
Lemma refb_spells : forall tr, refb (kind tr) = true -> exists w ws, spells tr (Written false w ws).
Proof.
  intros [[|t l] m] h; [discriminate|]. cbn [kind refb] in h. apply andb_prop in h as [h h3]. apply andb_prop in h as [h1 h2].
  apply tt_eqb_eq in h1. destruct (t_label t) as [w|] eqn:e2; [|discriminate].
  destruct (restb_spells _ l (le_n _) h3) as (ws & sp). exists w, ws. apply spells_relative; [split; assumption|exact sp].
Qed.
Lemma namedb_named : forall n, namedb n = true -> named n.
Proof.
  intros n h. destruct n; try exact I; cbn [namedb named] in *.
  - destruct n1; try exact I. intros q. rewrite q in h. discriminate h.
  - destruct n; try exact I. apply refb_spells. exact h.
  - destruct type_ref as [r|]; [|exact I]. destruct r; try exact I. apply refb_spells. exact h.
Qed.
Fixpoint everywhere (k : nat) (n : Node) : bool :=
  match k with O => false | S k => namedb n && forallb (everywhere k) (subnodes n) end.
Lemma everywhere_in : forall m n, node_in m n -> forall k, everywhere k n = true -> named m.
Proof.
  intros m n h. induction h as [n|m c n hc hm IH]; intros [|k] e; try discriminate; cbn [everywhere] in e; apply andb_prop in e as [e1 e2].
  - apply namedb_named. exact e1.
  - apply (IH k). eapply forallb_forall; eassumption.
Qed.

Example C55_texts_case :
  let s := state_after [(disk2 "<?php" "<?php class Z {}", EvIndex [pA; pB])] in
  reachable s /\ findS pA (b_open s) = None /\ syntax 400 (lit text55b) = Some nodes55b /\ names_written nodes55b /\
  exists s', serve 400 (disk2 text55b "<?php") (fun m => m) (EvWatched [pA]) s = Done tt s'.
Proof.
  cbv zeta. split; [apply state_after_reachable|]. split; [vm_compute; reflexivity|].
  split; [vm_compute; reflexivity|]. split.
  - assert (e : forallb (everywhere 100) nodes55b = true) by (vm_compute; reflexivity). rewrite forallb_forall in e.
    intros root n h1 h2. eapply everywhere_in; [exact h2|]. apply e. exact h1.
  - eexists. vm_compute. reflexivity.
Qed.

Print Assumptions C55_texts_partial.
