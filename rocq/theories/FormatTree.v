(** The formatter writes the tokens of a tree, by induction on the trees of
    SpecFormat.v. *)

From Coq Require Import Bool.
From Verif Require Import Base Token TokenFacts Scanner SpecScanner ScannerFacts ScannerMore Respell Prop_Scanner
  Node Parser SpecExpr Formatter SpecFormat FormatFacts.

Scheme expr_mut := Minimality for expr Sort Prop
  with exprs_mut := Minimality for exprs Sort Prop
  with param_mut := Minimality for param Sort Prop
  with default_mut := Minimality for default Sort Prop
  with params_mut := Minimality for params Sort Prop
  with param_list_mut := Minimality for param_list Sort Prop
  with block_mut := Minimality for block Sort Prop
  with function_rest_mut := Minimality for function_rest Sort Prop
  with branches_mut := Minimality for branches Sort Prop
  with else_branch_mut := Minimality for else_branch Sort Prop
  with stmt_mut := Minimality for stmt Sort Prop
  with members_mut := Minimality for members Sort Prop
  with member_list_mut := Minimality for member_list Sort Prop
  with member_mut := Minimality for member Sort Prop
  with stmts_mut := Minimality for stmts Sort Prop.

Combined Scheme tree_mut from expr_mut, exprs_mut, param_mut, default_mut, params_mut, param_list_mut, block_mut,
  function_rest_mut, branches_mut, else_branch_mut, stmt_mut, members_mut, member_list_mut, member_mut, stmts_mut.

Ltac insym := eapply in_symbols; reflexivity.
Ltac inkey := eapply in_keywords; reflexivity.

Ltac split_text :=
  change (lit ", ") with (lit "," ++ lit " ") in *;
  change (lit ") ") with (lit ")" ++ lit " ") in *;
  change (lit " (") with (lit " " ++ lit "(") in *;
  change (lit "; ") with (lit ";" ++ lit " ") in *;
  change (lit ");") with (lit ")" ++ lit ";") in *;
  change (lit " as ") with (lit " " ++ lit "as" ++ lit " ") in *;
  change (lit " = ") with (lit " " ++ lit "=" ++ lit " ") in *;
  change (lit "while (") with (lit "while" ++ lit " " ++ lit "(") in *;
  change (lit " while (") with (lit " " ++ lit "while" ++ lit " " ++ lit "(") in *;
  change (lit "for (") with (lit "for" ++ lit " " ++ lit "(") in *;
  change (lit "foreach (") with (lit "foreach" ++ lit " " ++ lit "(") in *;
  change (lit "do ") with (lit "do" ++ lit " ") in *;
  change (lit "else ") with (lit "else" ++ lit " ") in *;
  change (lit " extends ") with (lit " " ++ lit "extends" ++ lit " ") in *;
  change (lit " implements ") with (lit " " ++ lit "implements" ++ lit " ") in *;
  change (lit "") with (@nil N) in *.
Ltac norm := split_text; repeat (rewrite <- !app_assoc || rewrite !app_nil_r || (progress (cbn [app]))).

Section Tree.
  Context {RT : Runtime}.
  Variable ts : list Token.
  Hypothesis scanned : exists src, scan src = SOk ts.

  Lemma joined_map : forall s (f : Node -> option str) n m l,
    joined s (map f (n :: m :: l)) = cat [f n; Some s; joined s (map f (m :: l))].
  Proof. reflexivity. Qed.

  Definition solid (w : str) : Prop := exists b c, w = b ++ [c] /\ is_whitespace c = false.
  Definition blank (w : str) : Prop := forall c, In c w -> c = 32 \/ c = 10.

  Lemma sp_blank : forall w R K, blank w -> spells R K -> spells (w ++ R) K.
  Proof.
    induction w as [|c w IH]; intros R K h hr; [exact hr|]. cbn [app]. apply S_white; [apply h; left; reflexivity|].
    apply IH; [|exact hr]. intros x hx. apply h. right. exact hx.
  Qed.
  Lemma solid_app : forall a b, solid b -> solid (a ++ b).
  Proof. intros a b (x & c & -> & h). exists (a ++ x), c. rewrite app_assoc. auto. Qed.
  Lemma solid_semicolon : solid (lit ";").
  Proof. exists [], 59. split; reflexivity. Qed.
  Lemma solid_curly : solid (lit "}").
  Proof. exists [], 125. split; reflexivity. Qed.
  Lemma ends_or : forall w R, w = [] \/ ends w -> ends R -> ends (w ++ R).
  Proof. intros w R [-> | h] hr; [exact hr|]. destruct w; [exact hr|exact h]. Qed.

  Definition opens (k : list key) : Prop := exists x k', k = x :: k' /\ fst x <> TCloseParenthesis.
  Lemma opens_no_close : forall k K, opens k -> no_close (k ++ K).
  Proof. intros k K ((x & y) & k' & -> & h). exact h. Qed.

  Definition Pexpr (n : Node) (k : list key) : Prop := has_range n /\ writes soft n k.
  Definition Pexprs (l : list Node) (k : list key) : Prop :=
    Forall has_range l /\ forall line col, exists w, joined (lit ", ") (map (fun n => format_node n line col) l) = Some w /\ soft w k.
  Definition Pparam (n : Node) (k : list key) : Prop := writes soft n k.
  Definition Pdefault (d : option (Token * Node)) (k : list key) : Prop :=
    forall line col, exists w, optional_one " = " " " (option_map (fun n => format_node n line col) (option_map snd d)) = Some w
      /\ (w = [] \/ ends w) /\ soft w k.
  Definition Pparams (o : option (list Node)) (k : list key) : Prop :=
    forall line col, exists w, optional_list "" "" (option_map (fun l => map (fun n => format_node n line col) l) o) = Some w /\ soft w k.
  Definition Pparam_list (l : list Node) (k : list key) : Prop :=
    l <> [] /\ forall line col, exists w, joined (lit ", ") (map (fun n => format_node n line col) l) = Some w /\ soft w k.
  Definition Pblock (n : Node) (k : list key) : Prop :=
    has_range n /\ writes (fun w k => hard w k /\ solid w /\ forall X, ends (w ++ X)) n k /\ opens k.
  Definition Pbranches (l : list Node) (k : list key) : Prop :=
    Forall has_range l /\ forall line col, exists w, cat (map (fun n => format_node n line col) l) = Some w /\ hard w k /\ (w = [] \/ solid w).
  Definition Pelse (o : option Node) (k : list key) : Prop :=
    match o with Some n => has_range n | None => True end /\
    forall line col, exists w, optional_one "" "" (option_map (fun n => format_node n line col) o) = Some w /\ hard w k /\ (w = [] \/ solid w).
  Definition Pstmt (n : Node) (k : list key) : Prop :=
    has_range n /\ forall line col, exists body tr,
      format_stmt n line col = Some (body ++ tr) /\ blank tr /\ solid body /\ hard body k.
  Definition Pstmts (l : list Node) (k : list key) : Prop :=
    forall p line col, exists body tr,
      in_sequence p (map (fun n => (node_range n, format_stmt n line col)) l) = Some (body ++ tr)
      /\ blank tr /\ (body = [] \/ solid body) /\ hard body k.

  (** tokens *)
  Lemma shown : forall t k, tok ts k t -> fixed_kind k = true -> display_token t = display_type k.
  Proof. intros t k (h1 & h2) hf. exact (proj1 (fixed_token ts scanned t k h1 h2 hf)). Qed.
  Lemma ended : forall t k, tok ts k t -> k <> THereDocEnd -> exists e, token_end t = Some e.
  Proof. intros t k (h1 & h2) hf. apply (measure ts scanned t h1). rewrite h2. exact hf. Qed.
  Lemma name_soft : forall t, name ts t -> exists w, display_token t = Some w /\ soft w [key_of t].
  Proof.
    intros t h. destruct (name_puts ts scanned t h) as (w & hp & _ & hl). exists w. split; [exact (proj1 hp)|].
    intros R K (hR & _) hr. eapply sp_token; eauto.
  Qed.
  Lemma identifier_soft : forall t, tok ts TIdentifier t -> exists w, display_token t = Some w /\ soft w [key_of t].
  Proof. intros t h. apply name_soft. left. exact h. Qed.
  Lemma variable_soft : forall t, tok ts TVariable t -> exists w, display_token t = Some w /\ soft w [key_of t]
    /\ forall X, begins_operator (w ++ X) = false.
  Proof.
    intros t h. destruct (variable_puts ts scanned t h) as (w & hp & hl). exists w. split; [exact (proj1 hp)|]. split.
    - intros R K (hR & _) hr. eapply sp_token; eauto.
    - intros X. destruct hp as (hp & _). unfold display_token in hp. rewrite (proj2 h) in hp.
      destruct (t_label t); injection hp as <-; reflexivity.
  Qed.
  Lemma literal_soft : forall t, In t ts -> literal (t_type t) = true -> complete t ->
    exists w, display_token t = Some w /\ soft w [key_of t].
  Proof.
    intros t h h1 h2. destruct (literal_puts ts scanned t h h1 h2) as (w & hp & hl). exists w. split; [exact (proj1 hp)|].
    intros R K hR hr. eapply sp_token; eauto.
  Qed.
  Lemma name_ended : forall t, name ts t -> exists e, token_end t = Some e.
  Proof.
    intros t [h|(h1 & h2)]; [apply (ended t _ h); discriminate|]. apply (measure ts scanned t h1). intros e. rewrite e in h2.
    unfold name_words in h2. repeat (destruct h2 as [h2|h2]; [discriminate h2|]). destruct h2.
  Qed.

  Lemma variable_no_close : forall t K, tok ts TVariable t -> no_close (key_of t :: K).
  Proof. intros t K (_ & h). unfold key_of. cbn [no_close]. rewrite h. discriminate. Qed.

  Lemma param_type_put : forall o k, param_type ts o k -> forall line col, exists w,
    optional_one "" " " (option_map (fun n => format_node n line col) o) = Some w /\
    (forall R K, no_close K -> spells R K -> spells (w ++ R) (k ++ K)).
  Proof.
    intros o k h line col. destruct h as [|n k h].
    - exists []. split; [reflexivity|]. auto.
    - destruct (data_type_put ts scanned n k h) as (_ & hw). destruct (hw line col) as (w & e & hwt).
      cbn [option_map optional_one]. rewrite e. cbn [cat obind text]. eexists. split; [reflexivity|].
      intros R K hn hr. norm. apply hwt; [split; reflexivity|exact hn|]. apply sp_space. exact hr.
  Qed.
  Lemma extending_put : forall o k, extending ts o k -> forall line col, exists w,
    optional_one " extends " "" (option_map (fun n => format_node n line col) o) = Some w /\ (w = [] \/ ends w) /\ soft w k.
  Proof.
    intros o k h line col. destruct h as [|l h].
    - exists []. splits; auto. intros R K _ hr. exact hr.
    - destruct (name_path ts scanned l h) as (w & e & hb & hn & hin & hne & hs). cbn [option_map optional_one].
      change (format_node (NTypeRef (tref_one l)) line col) with (display_tokens l). rewrite e. cbn [cat obind text].
      eexists. split; [reflexivity|]. split; [right; split; reflexivity|]. intros R K hR hr. norm.
      apply sp_space. apply (sp_key TExtends "extends"%string); [inkey|reflexivity|]. apply sp_space. apply hs; auto.
  Qed.
  Lemma implementing_put : forall o k, implementing ts o k -> forall line col, exists w,
    optional_list " implements " "" (option_map (fun l => map (fun n => format_node n line col) l) o) = Some w /\ (w = [] \/ ends w) /\ soft w k.
  Proof.
    intros o k h line col. destruct h as [|l k h].
    - exists []. splits; auto. intros R K _ hr. exact hr.
    - destruct (names_put ts scanned l k h line col) as (w & e & hs). cbn [option_map optional_list]. rewrite e. cbn [cat obind text].
      eexists. split; [reflexivity|]. split; [right; split; reflexivity|]. intros R K hR hr. norm.
      apply sp_space. apply (sp_key TImplements "implements"%string); [inkey|reflexivity|]. apply sp_space. apply hs; auto.
  Qed.
  Definition modifiers : list TokenType := [TAbstract; TFinal; TStatic; TPublic; TProtected; TPrivate; TVar].
  Lemma modifier_token : forall t, In t ts -> In (t_type t) modifiers ->
    (exists e, token_end t = Some e) /\ exists w, padded (Some t) = Some w /\ hard w [sym (t_type t)].
  Proof.
    intros t hin hk.
    repeat (destruct hk as [hk|hk];
      [symmetry in hk; pose proof (conj hin hk : tok ts _ t) as h; split; [apply (ended t _ h); discriminate|];
       cbn [padded]; rewrite (shown t _ h eq_refl), hk; cbn [display_type]; cbn [cat obind text]; eexists; split; [reflexivity|];
       intros R K hr; norm; eapply sp_key; [inkey|reflexivity|apply sp_space; exact hr]|]).
    destruct hk.
  Qed.
  Lemma modifier_put : forall l o k, modifier ts l o k -> (forall x, In x l -> In x modifiers) ->
    match o with Some t => exists e, token_end t = Some e | None => True end /\
    exists w, padded o = Some w /\ hard w k.
  Proof.
    intros l o k h hl. destruct h as [|t (hin & h)].
    - split; [exact I|]. exists []. split; [reflexivity|]. intros R K hr. exact hr.
    - apply modifier_token; auto.
  Qed.
  Ltac show :=
    repeat match goal with
    | h : tok ts ?k ?t |- context [display_token ?t] =>
        rewrite (shown t k h eq_refl); cbn [display_type]
    end.
  Ltac rng :=
    unfold has_range; cbn [node_range map];
    repeat match goal with
    | h : has_range ?n |- context [node_range ?n] => let r := fresh "r" in let e := fresh "e" in destruct h as (r & e); rewrite e
    | h : tok ts ?k ?t |- context [token_end ?t] =>
        let r := fresh "r" in let e := fresh "e" in destruct (ended t k h) as (r & e); [discriminate|rewrite e]
    | h : tok ts ?k ?t |- context [rng_tok_tok _ ?t] =>
        let r := fresh "r" in let e := fresh "e" in unfold rng_tok_tok; destruct (ended t k h) as (r & e); [discriminate|rewrite e]
    | h : tok ts ?k ?t |- context [rng_node_tok _ ?t] =>
        let r := fresh "r" in let e := fresh "e" in unfold rng_node_tok; destruct (ended t k h) as (r & e); [discriminate|rewrite e]
    end;
    cbn; eauto.
  Ltac sp1 :=
    match goal with
    | |- spells (lit " " ++ _) _ => apply sp_space
    | |- spells (newline ++ _) _ => apply sp_newline
    | |- spells (repeat 32 _ ++ _) _ => apply sp_blanks
    | |- spells (lit ")" ++ _) _ => apply sp_close
    | |- spells (lit "array" ++ _) _ => apply sp_array; [|reflexivity]
    | h : soft ?w _ |- spells (?w ++ _) _ => apply h; [try (first [split; reflexivity|assumption|match goal with h' : forall X, ends (?v ++ X) |- ends (?v ++ _) => apply h' end])|]
    | h : forall R K, ends R -> no_close K -> spells R K -> spells (?w ++ R) _ |- spells (?w ++ _) _ =>
        apply h; [try (split; reflexivity)|first [discriminate|apply opens_no_close; assumption]|]
    | h : forall R K, no_close K -> spells R K -> spells (?w ++ R) _ |- spells (?w ++ _) _ =>
        apply h; [first [discriminate|apply opens_no_close; assumption|apply variable_no_close; assumption]|]
    | h : hard ?w _ |- spells (?w ++ _) _ => apply h
    | h : blank ?w |- spells (?w ++ _) _ => apply (sp_blank w _ _ h)
    | h : forall R K, spells R K -> spells (?w ++ lit " " ++ R) (_ :: K) |- spells (?w ++ lit " " ++ _) _ => apply h
    | |- spells (lit ?s ++ _) (sym ?k :: _) =>
        first [ apply (sp_sym k s); [insym|]
              | apply (sp_key k s); [inkey|reflexivity|]
              | eapply (sp_any k s); [insym|first [reflexivity|match goal with h : forall X, begins_operator (_ ++ X) = false |- _ => apply h end]|] ]
    end.
  Ltac sp := repeat sp1; auto.
  (** the texts of the parts are known: put them together *)
  Ltac fin := cbn [cat obind text blanks]; eexists; split; [reflexivity|].
  Ltac finish := fin; let R := fresh "R" in let K := fresh "K" in intros R K ? ?; norm; sp.

  Lemma expr_literal : forall t, In t ts -> literal (t_type t) = true -> complete t -> Pexpr (NLiteral t) [key_of t].
  Proof.
    intros t h h1 h2. split.
    - apply (ranged ts scanned t h). intros e. rewrite e in h1. discriminate h1.
    - intros line col. exact (literal_soft t h h1 h2).
  Qed.
  Lemma expr_name : forall t, name ts t -> Pexpr (NLiteral t) [key_of t].
  Proof.
    intros t h. split; [|intros line col; exact (name_soft t h)].
    destruct (name_ended t h) as ((c & l) & e). unfold has_range. cbn [node_range]. unfold token_range. rewrite e. eauto.
  Qed.
  Lemma expr_variable : forall t, tok ts TVariable t -> Pexpr (NVariable t) [key_of t].
  Proof.
    intros t h. split; [|intros line col; destruct (variable_soft t h) as (w & e & hs & _); exists w; split; [exact e|exact hs]].
    apply (ranged ts scanned t (proj1 h)). rewrite (proj2 h). discriminate.
  Qed.
  Lemma expr_path : forall l, path ts (name ts) l -> Pexpr (NTypeRef (tref_one l)) (map key_of l).
  Proof.
    intros l h. destruct (name_path ts scanned l h) as (w & e & hb & hn & hin & hne & hs). split; [apply (tref_ranged ts scanned); auto|].
    intros line col. exists w. split; [exact e|exact hs].
  Qed.
  Lemma expr_binary : forall a t b k l, Pexpr a k -> In t ts -> infix_operator t -> Pexpr b l ->
      Pexpr (NBinary a t b) (k ++ sym (t_type t) :: l).
  Proof.
    intros a t b k l (ra & ha) ht hi (rb & hb). split; [rng|]. intros line col.
    destruct (infix_puts ts scanned t ht hi) as (w & e & hw). destruct (ha line col) as (wa & ea & sa). destruct (hb line col) as (wb & eb & sb).
    cbn [format_node]. rewrite e, ea, eb. finish.
  Qed.

  Ltac opened :=
    repeat match goal with
    | h : Pexpr _ _ |- _ => let a := fresh "hr" in let b := fresh "hw" in destruct h as (a & b)
    | h : Pexprs _ _ |- _ => let a := fresh "hr" in let b := fresh "hw" in destruct h as (a & b)
    | h : Pparam _ _ |- _ => unfold Pparam in h
    | h : Pblock _ _ |- _ => let a := fresh "hr" in let b := fresh "hw" in let c := fresh "hc" in destruct h as (a & b & c)
    | h : Pbranches _ _ |- _ => let a := fresh "hr" in let b := fresh "hw" in destruct h as (a & b)
    | h : Pelse _ _ |- _ => let a := fresh "hr" in let b := fresh "hw" in destruct h as (a & b)
    | h : Pstmt _ _ |- _ => let a := fresh "hr" in let b := fresh "hw" in destruct h as (a & b)
    | h : Pparam_list _ _ |- _ => let a := fresh "hr" in let b := fresh "hw" in destruct h as (a & b)
    end.
  Ltac at_ line col :=
    repeat match goal with
    | h : writes soft ?n _ |- _ =>
        let w := fresh "w" in let e := fresh "e" in let x := fresh "hs" in destruct (h line col) as (w & e & x); clear h
    | h : writes (fun w k => hard w k /\ _) ?n _ |- _ =>
        let w := fresh "w" in let e := fresh "e" in let x := fresh "hs" in let y := fresh "hz" in let z := fresh "hx" in
        destruct (h line col) as (w & e & x & y & z); clear h
    | h : forall l c, exists w, joined _ _ = Some w /\ _ |- _ =>
        let w := fresh "w" in let e := fresh "e" in let x := fresh "hs" in destruct (h line col) as (w & e & x); clear h
    | h : Pparams _ _ |- _ =>
        let w := fresh "w" in let e := fresh "e" in let x := fresh "hs" in destruct (h line col) as (w & e & x); clear h
    | h : return_type ts _ _ |- _ =>
        let w := fresh "w" in let e := fresh "e" in let y := fresh "he" in let x := fresh "ht" in
        destruct (return_type_put ts scanned _ _ h line col) as (w & e & y & x); unfold opt_node in e; clear h
    | h : param_type ts _ _ |- _ =>
        let w := fresh "w" in let e := fresh "e" in let x := fresh "ht" in
        destruct (param_type_put _ _ h line col) as (w & e & x); clear h
    | h : extending ts _ _ |- _ =>
        let w := fresh "w" in let e := fresh "e" in let y := fresh "he" in let x := fresh "hs" in
        destruct (extending_put _ _ h line col) as (w & e & y & x); clear h
    | h : implementing ts _ _ |- _ =>
        let w := fresh "w" in let e := fresh "e" in let y := fresh "he" in let x := fresh "hs" in
        destruct (implementing_put _ _ h line col) as (w & e & y & x); clear h
    | h : Pdefault _ _ |- _ =>
        let w := fresh "w" in let e := fresh "e" in let y := fresh "he" in let x := fresh "hs" in
        destruct (h line col) as (w & e & y & x); clear h
    | h : forall l c, exists w, cat _ = Some w /\ _ |- _ =>
        let w := fresh "w" in let e := fresh "e" in let y := fresh "hz" in let x := fresh "hs" in
        destruct (h line col) as (w & e & x & y); clear h
    | h : forall l c, exists w, optional_one _ _ _ = Some w /\ _ |- _ =>
        let w := fresh "w" in let e := fresh "e" in let y := fresh "hz" in let x := fresh "hs" in
        destruct (h line col) as (w & e & x & y); clear h
    end.
  Ltac known :=
    repeat match goal with
    | e : format_node ?n ?l ?c = Some _ |- context [format_node ?n ?l ?c] => rewrite e
    | e : joined ?s ?l = Some _ |- context [joined ?s ?l] => rewrite e
    | e : optional_one ?a ?b ?l = Some _ |- context [optional_one ?a ?b ?l] => rewrite e
    | e : optional_list ?a ?b ?l = Some _ |- context [optional_list ?a ?b ?l] => rewrite e
    | e : cat (map ?f ?l) = Some _ |- context [cat (map ?f ?l)] => rewrite e
    | e : display_token ?t = Some _ |- context [display_token ?t] => rewrite e
    end; show.
  Ltac spread :=
    repeat match goal with
    | h : name ts ?t |- context [display_token ?t] =>
        let w := fresh "w" in let e := fresh "e" in let x := fresh "hs" in destruct (name_soft t h) as (w & e & x); rewrite e
    | h : tok ts TVariable ?t |- context [display_token ?t] =>
        let w := fresh "w" in let e := fresh "e" in let x := fresh "hs" in let y := fresh "ho" in destruct (variable_soft t h) as (w & e & x & y); rewrite e
    | h : tok ts TIdentifier ?t |- context [display_token ?t] =>
        let w := fresh "w" in let e := fresh "e" in let x := fresh "hs" in destruct (identifier_soft t h) as (w & e & x); rewrite e
    end.
  Ltac expr_tac := opened; split; [try solve [rng]|]; let line := fresh "line" in let col := fresh "col" in
    intros line col; at_ line col; cbn [format_node option_map map in_front];
    cbn [unpadded padded optional_one optional_list option_map map]; spread; known; try solve [finish].

  Ltac param_tac := opened; let line := fresh "line" in let col := fresh "col" in intros line col; at_ line col;
    cbn [format_node option_map map in_front]; cbn [unpadded padded optional_one optional_list option_map map];
    spread; known; fin; let R := fresh "R" in let K := fresh "K" in intros R K ? ?; norm; sp; apply ends_or; auto.

  Ltac solids := repeat first [assumption | apply solid_semicolon | apply solid_curly | apply solid_app].
  Ltac blanks_tac := let c := fresh "c" in let h := fresh "h" in intros c h; cbn in h; intuition.
  Ltac strip W := match W with
    | ?a ++ ?r => let r' := strip r in constr:(a ++ r')
    | newline => constr:(@nil N)
    | _ => W end.
  Ltac tail t := norm; match goal with |- exists b _, Some ?W = _ /\ _ =>
    let b := strip W in exists b, t; split; [f_equal; norm; reflexivity|]; split; [blanks_tac|]; split; [norm; solids|];
    let R := fresh "R" in let K := fresh "K" in intros R K ?; norm; sp end.

  Lemma stmts_none : Pstmts [] [].
  Proof.
    intros p line col. exists [], []. splits; auto.
    - intros c [].
    - intros R K h. exact h.
  Qed.
  Lemma stmts_more : forall n l k ks, Pstmt n k -> Pstmts l ks -> Pstmts (n :: l) (k ++ ks).
  Proof.
    intros n l k ks ((r & er) & hn) hl p line col. destruct (hn line col) as (b1 & t1 & e1 & q1 & s1 & h1).
    destruct (hl (end_line r) line col) as (b2 & t2 & e2 & q2 & s2 & h2). cbn [map in_sequence]. rewrite er, e1. cbn [obind].
    rewrite e2. cbn [cat obind].
    assert (hg : exists m, gap p r = repeat 10 m).
    { unfold gap. destruct (negb (p =? 0) && (p <? start_line r)); [eauto|exists 0%nat; reflexivity]. }
    destruct hg as (m & ->). destruct s2 as [-> |s2].
    - exists (repeat 10 m ++ b1), (t1 ++ t2). splits.
      + f_equal. norm. reflexivity.
      + intros c hc. apply in_app_iff in hc as [hc|hc]; auto.
      + right. apply solid_app. exact s1.
      + intros R K hr. norm. apply sp_lines. apply h1. apply (h2 R). exact hr.
    - exists (repeat 10 m ++ b1 ++ t1 ++ b2), t2. splits; auto.
      + f_equal. norm. reflexivity.
      + right. norm. apply solid_app, solid_app, solid_app. exact s2.
      + intros R K hr. norm. apply sp_lines. apply h1. apply sp_blank; [exact q1|]. apply h2. exact hr.
  Qed.

  Theorem trees :
    (forall n k, expr ts n k -> Pexpr n k) /\
    (forall n k, exprs ts n k -> Pexprs n k) /\
    (forall n k, param ts n k -> Pparam n k) /\
    (forall n k, default ts n k -> Pdefault n k) /\
    (forall n k, params ts n k -> Pparams n k) /\
    (forall n k, param_list ts n k -> Pparam_list n k) /\
    (forall n k, block ts n k -> Pblock n k) /\
    (forall n k, function_rest ts n k -> Pblock n k) /\
    (forall n k, branches ts n k -> Pbranches n k) /\
    (forall n k, else_branch ts n k -> Pelse n k) /\
    (forall n k, stmt ts n k -> Pstmt n k) /\
    (forall n k, members ts n k -> Pblock n k) /\
    (forall n k, member_list ts n k -> Pstmts n k) /\
    (forall n k, member ts n k -> Pstmt n k) /\
    (forall n k, stmts ts n k -> Pstmts n k).
  Proof.
    apply tree_mut; intros.
    - apply expr_literal; auto.
    - apply expr_name; auto.
    - apply expr_variable; auto.
    - apply expr_path; auto.
    - expr_tac.
    - apply expr_binary; auto.
    - (* prefix *) destruct (prefix_puts ts scanned t) as (w & e & hw); [assumption|]. expr_tac.
    - (* postfix *) match goal with h : one_of _ _ _ |- _ => destruct h as (hin & [hk|[hk|[]]]) end;
        symmetry in hk; pose proof (conj hin hk : tok ts _ _); rewrite hk; expr_tac.
    - (* conditional *) expr_tac.
    - expr_tac.
    - expr_tac.
    - match goal with h : one_of _ _ _ |- _ => destruct h as (hin & [hk|[hk|[]]]) end;
        symmetry in hk; pose proof (conj hin hk : tok ts _ _); rewrite hk; expr_tac.
    - expr_tac.
    - expr_tac.
    - expr_tac.
    - expr_tac.
    - expr_tac.
    - expr_tac.
    - expr_tac.
    - expr_tac.
    - expr_tac.
    - expr_tac.
    - expr_tac.
    - match goal with h : one_of _ _ _ |- _ => destruct h as (hin & [hk|[hk|[hk|[hk|[]]]]]) end;
        symmetry in hk; pose proof (conj hin hk : tok ts _ _); rewrite hk; expr_tac.
    - expr_tac.
    - expr_tac.
    - (* exprs *) split; [constructor|]. intros line col. exists []. split; [reflexivity|]. intros R K _ h. exact h.
    - split; [constructor; [|constructor]; opened; assumption|]. intros line col. opened. at_ line col. exists w. auto.
    - opened. split; [constructor; assumption|]. intros line col. at_ line col. rewrite joined_map. known. finish.
    - (* param *) param_tac.
    - param_tac.
    - param_tac.
    - (* default *) intros line col. exists []. splits; auto. intros R K _ h. exact h.
    - opened. intros line col. at_ line col. cbn [option_map snd optional_one]. known. cbn [cat obind text].
      eexists. split; [reflexivity|]. split; [right; split; reflexivity|]. intros R K q1 q2. norm. sp.
    - (* params *) intros line col. exists []. split; [reflexivity|]. intros R K _ h. exact h.
    - opened. intros line col. at_ line col. cbn [option_map optional_list]. known. finish.
    - (* param_list *) split; [discriminate|]. opened. intros line col. at_ line col. exists w. auto.
    - opened. split; [discriminate|]. intros line col. at_ line col. destruct l as [|m l]; [contradiction|]. rewrite joined_map.
      known. finish.
    - (* block *) split; [rng|]. split; [|exists (sym TOpenCurly); eexists; split; [reflexivity|discriminate]].
      intros line col. match goal with h : Pstmts _ _ |- _ => destruct (h 0 line (col + indent)) as (body & tr & e & hb & hs & hh) end.
      cbn [format_node]. rewrite e. fin. split; [|split; [|intros X; split; reflexivity]].
      + intros R K q1. norm. sp.
      + rewrite app_nil_r, !app_assoc. apply solid_app. apply solid_curly.
    - (* function with body *) opened. split; [rng|]. split; [|exists (sym TOpenParenthesis); eexists; split; [reflexivity|discriminate]].
      intros line col. at_ line col. cbn [format_node]. known. fin. split; [|split; [|intros X; split; reflexivity]].
      + intros R K q1. norm. sp.
      + norm. solids.
    - (* abstract function *) split; [|split; [|exists (sym TOpenParenthesis); eexists; split; [reflexivity|discriminate]]].
      + match goal with h : return_type ts _ _ |- _ => destruct h as [|c' n' k' hc' hn'] end; [rng|].
        destruct (data_type_put ts scanned _ _ hn') as (hr & _). rng.
      + intros line col. at_ line col. cbn [format_node]. known. fin. split; [|split; [|intros X; split; reflexivity]].
        * intros R K q1. norm. sp.
        * norm. solids.
    - (* branches *) split; [constructor|]. intros line col. exists []. splits; auto. intros R K h. exact h.
    - opened. split; [constructor; [rng|assumption]|]. intros line col. at_ line col. cbn [map cat format_node]. known. fin. split.
      + intros R K q1. norm. sp.
      + right. norm.  match goal with h : _ = [] \/ solid _ |- _ => destruct h as [-> |] end; norm; solids.
    - (* else *) split; [exact I|]. intros line col. exists []. splits; auto. intros R K h. exact h.
    - opened. split; [rng|]. intros line col. at_ line col. cbn [option_map optional_one format_node]. known. fin. split.
      + intros R K q1. norm. sp.
      + right. norm. solids.
    - (* expression statement *) opened. split; [rng|]. intros line col. at_ line col. cbn [format_stmt]. known. cbn [cat obind text blanks].
      tail newline.
    - (* echo *) opened. split.
      + unfold has_range. cbn [node_range]. destruct (last_range (n :: l)) as (r & e); [discriminate|assumption|]. rewrite e. cbn. eauto.
      + intros line col. at_ line col. cbn [format_stmt]. known. cbn [cat obind text blanks].
        tail newline.
    - (* print *) opened. split; [rng|]. intros line col. at_ line col. cbn [format_stmt map joined]. known. cbn [cat obind text blanks].
      tail newline.
    - (* return *) split; [rng; unfold token_range; rng; destruct r; eauto|]. intros line col. cbn [format_stmt option_map optional_one]. known. cbn [cat obind text blanks].
      tail newline.
    - opened. split; [rng|]. intros line col. at_ line col. cbn [format_stmt option_map optional_one]. known. cbn [cat obind text blanks].
      tail newline.
    - (* jump *) match goal with h : one_of _ _ _ |- _ => destruct h as (hin & [hk|[hk|[]]]) end;
        symmetry in hk; pose proof (conj hin hk : tok ts _ _); rewrite hk;
        (split; [rng; unfold token_range; rng; destruct r; eauto|]); intros line col; cbn [format_stmt]; known; cbn [cat obind text blanks].
      + tail (@nil N).
      + tail (@nil N).
    - (* if *) opened. split.
      + destruct e as [e|]; [rng|]. destruct l as [|x l]; [rng|]. cbn [node_range].
        destruct (last_range (x :: l)) as (r & er); [discriminate|assumption|]. 
        unfold has_range. cbn [node_range]. rewrite er. rng.
      + intros line col. at_ line col. cbn [format_stmt]. cbn [format_node]. known. cbn [cat obind text blanks].
        destruct hz1 as [-> |hz1]; [destruct hz0 as [-> |hz0]|].
        * exists (repeat 32 (N.to_nat col) ++ lit "if" ++ lit " " ++ lit "(" ++ w ++ lit ")" ++ lit " " ++ w0), (lit " " ++ lit " " ++ newline).
          split; [f_equal; norm; reflexivity|]. split; [blanks_tac|]. split; [norm; solids|]. intros R K q. norm. sp.
          apply (hs1 R). apply (hs2 R). exact q.
        * exists (repeat 32 (N.to_nat col) ++ lit "if" ++ lit " " ++ lit "(" ++ w ++ lit ")" ++ lit " " ++ w0 ++ lit " " ++ w1), (lit " " ++ newline).
          split; [f_equal; norm; reflexivity|]. split; [blanks_tac|]. split; [norm; solids|]. intros R K q. norm. sp.
          apply (hs2 R). exact q.
        * tail newline.
    - (* while *) opened. split; [rng|]. intros line col. at_ line col. cbn [format_stmt]. known. cbn [cat obind text blanks].
      tail newline.
    - (* do *) opened. split; [rng|]. intros line col. at_ line col. cbn [format_stmt]. known. cbn [cat obind text blanks].
      tail newline.
    - (* for *) opened. split; [rng|]. intros line col. at_ line col. cbn [format_stmt]. known. cbn [cat obind text blanks].
      tail newline.
    - (* foreach *) opened. split; [rng|]. intros line col. at_ line col. cbn [format_stmt]. known. cbn [cat obind text blanks].
      tail newline.
    - (* function *) opened. split; [rng|]. intros line col. at_ line col. cbn [format_stmt map in_sequence]. spread; known. cbn [cat obind text blanks].
      tail (@nil N).
    - (* namespace *) match goal with h : path ts _ l |- _ => destruct (expr_path l h) as (hr & hw) end.
      revert hr hw. generalize (NTypeRef (tref_one l)), (map key_of l). intros n k hr hw.
      split; [rng|]. intros line col. at_ line col. cbn [format_stmt]. known. cbn [cat obind text blanks].
      tail newline.
    - (* abstract class *)
      match goal with h : modifier ts _ _ _ |- _ => destruct (modifier_put _ _ _ h) as (hm & wm & em & hsm);
        [intros y hy; cbn in hy; unfold modifiers; cbn; intuition|] end.
      opened. split; [destruct m as [m|]; rng|]. intros line col. at_ line col. cbn [format_stmt map in_sequence].
      rewrite em. cbn [padded]. spread; known. cbn [cat obind text blanks].
      tail (@nil N); repeat (apply ends_or; [assumption|]); split; reflexivity.
    - (* final class *)
      match goal with h : modifier ts _ _ _ |- _ => destruct (modifier_put _ _ _ h) as (hm & wm & em & hsm);
        [intros y hy; cbn in hy; unfold modifiers; cbn; intuition|] end.
      opened. split; [destruct m as [m|]; rng|]. intros line col. at_ line col. cbn [format_stmt map in_sequence].
      rewrite em. cbn [padded]. spread; known. cbn [cat obind text blanks].
      tail (@nil N); repeat (apply ends_or; [assumption|]); split; reflexivity.
    - (* class body *) split; [rng|]. split; [|exists (sym TOpenCurly); eexists; split; [reflexivity|discriminate]].
      intros line col. match goal with h : Pstmts _ _ |- _ => destruct (h 0 line (col + indent)) as (body & tr & e & hb & hs & hh) end.
      cbn [format_node]. rewrite e. fin. split; [|split; [|intros X; split; reflexivity]].
      + intros R K q1. norm. sp.
      + rewrite app_nil_r, !app_assoc. apply solid_app. apply solid_curly.
    - apply stmts_none.
    - apply stmts_more; auto.
    - (* method *)
      match goal with h : modifier ts visibilities _ _ |- _ => destruct (modifier_put _ _ _ h) as (hm & wm & em & hsm);
        [intros y hy; cbn in hy; unfold modifiers; cbn; intuition|] end.
      match goal with h : modifier ts [TStatic] _ _ |- _ => destruct (modifier_put _ _ _ h) as (hm' & wm' & em' & hsm');
        [intros y hy; cbn in hy; unfold modifiers; cbn; intuition|] end.
      opened. split; [destruct v as [v|]; rng|]. intros line col. at_ line col. cbn [format_stmt map in_sequence].
      rewrite em, em'. cbn [padded]. spread; known. cbn [cat obind text blanks].
      tail newline.
    - (* property *)
      match goal with h : one_of ts visibilities _ |- _ => destruct h as (hin & hk) end.
      destruct (modifier_token v hin) as (_ & wm & em & hsm); [revert hk; unfold visibilities, modifiers; cbn [In]; tauto|].
      match goal with h : modifier ts [TStatic] _ _ |- _ => destruct (modifier_put _ _ _ h) as (hm' & wm' & em' & hsm');
        [intros y hy; cbn in hy; unfold modifiers; cbn; intuition|] end.
      assert (hp : exists r, token_range n = Some r).
      { apply (ranged ts scanned n); match goal with h : tok ts TVariable n |- _ => destruct h as (h1 & h2); [exact h1 || (rewrite h2; discriminate)] end. }
      destruct hp as (r & er). split; [unfold has_range; cbn; rewrite er; cbn; eauto|].
      intros line col. cbn [format_stmt map in_sequence]. rewrite em, em'. cbn [padded node_range]. rewrite er. cbn [obind].
      cbn [option_map optional_one]. spread; known. cbn [cat obind text blanks]. change (gap 0 r) with (@nil N).
      tail newline.
    - (* property with value *) opened.
      match goal with h : one_of ts visibilities _ |- _ => destruct h as (hin & hk) end.
      destruct (modifier_token v hin) as (_ & wm & em & hsm); [revert hk; unfold visibilities, modifiers; cbn [In]; tauto|].
      match goal with h : modifier ts [TStatic] _ _ |- _ => destruct (modifier_put _ _ _ h) as (hm' & wm' & em' & hsm');
        [intros y hy; cbn in hy; unfold modifiers; cbn; intuition|] end.
      destruct hr as (r & er). split; [unfold has_range; cbn; rewrite er; cbn; eauto|].
      intros line col. at_ line col. cbn [format_stmt map in_sequence]. rewrite em, em'. cbn [padded node_range]. rewrite er. cbn [obind rng_tok_node].
      cbn [option_map optional_one]. spread; known. cbn [cat obind text blanks]. change (gap 0 _) with (@nil N).
      tail newline.
    - (* constant *) opened.
      match goal with h : modifier ts visibilities _ _ |- _ => destruct (modifier_put _ _ _ h) as (hm & wm & em & hsm);
        [intros y hy; cbn in hy; unfold modifiers; cbn; intuition|] end.
      destruct hr as (r & er). split; [unfold has_range; cbn; rewrite er; cbn; eauto|].
      intros line col. at_ line 0. cbn [format_stmt map in_sequence]. rewrite em. known.
      assert (hu : exists u, unpadded v = Some u).
      { destruct v as [v|]; [|eexists; reflexivity]. cbn [padded unpadded] in *. destruct (display_token v); [eauto|discriminate em]. }
      destruct hu as (u & ->). cbn [obind joined map]. cbn [format_node].  known. spread. cbn [cat obind text blanks N.to_nat repeat].
      tail newline.
    - apply stmts_none.
    - apply stmts_more; auto.
  Qed.
End Tree.
