(** The formatter writes the tokens of a tree: proof library for
    Prop_Format.v. *)

From Coq Require Import Bool.
From Verif Require Import Base Token TokenFacts Scanner SpecScanner ScannerFacts ScannerMore Respell Prop_Scanner
  Node Parser SpecExpr Formatter SpecFormat.

Section FormatFacts.
  Context {RT : Runtime}.
  Variable ts : list Token.
  Hypothesis scanned : exists src, scan src = SOk ts.

  Notation tok := (tok ts).
  Notation one_of := (one_of ts).
  Notation name := (name ts).

  (** ** Tokens *)

  Lemma in_true : forall t, In t ts -> exists src, token_true src t.
  Proof.
    intros t h. destruct scanned as (src & hs). exists src.
    pose proof (C39_tokens_true _ src ts hs) as F. rewrite Forall_forall in F. auto.
  Qed.

  Lemma measure : forall t, In t ts -> t_type t <> THereDocEnd -> exists e, token_end t = Some e.
  Proof. intros t h hk. destruct (in_true t h) as (src & ht). eapply token_true_end; [exact ht|tauto]. Qed.

  Lemma ranged : forall t, In t ts -> t_type t <> THereDocEnd -> exists r, token_range t = Some r.
  Proof. intros t h hk. destruct (measure t h hk) as ((c & l) & e). unfold token_range. rewrite e. eauto. Qed.

  Lemma fixed_label : forall t, In t ts -> fixed_kind (t_type t) = true -> t_label t = None.
  Proof.
    intros t h hk. destruct (in_true t h) as (src & b & lex & r & _ & _ & hs).
    destruct t as [c l k lab o]. cbn [t_type t_label] in *. unfold spelled in hs. cbn [t_type t_label] in hs.
    destruct k; cbn [fixed_kind] in hk; try discriminate hk; tauto.
  Qed.

  Lemma fixed_token : forall t k, In t ts -> t_type t = k -> fixed_kind k = true ->
    display_token t = display_type k /\ key_of t = sym k.
  Proof.
    intros t k h hk hf. subst k. pose proof (fixed_label t h hf) as hl. unfold display_token, key_of, sym. rewrite hl.
    split; reflexivity.
  Qed.

  (** what may follow a word or a number *)
  Definition ends (rest : str) : Prop := begins_word rest = false /\ begins_dot rest = false.

  (** a token that never runs into the one behind it *)
  Definition loose (k : TokenType) : Prop := map_cast k = None /\ k <> TYield.
  Lemma loose_sticks : forall k ks, loose k -> sticks k ks = false.
  Proof.
    intros k ks (h1 & h2). unfold sticks. destruct ks as [|(k2 & l2) ks]; [reflexivity|]. rewrite h1. cbn [is_some andb orb].
    destruct (tt_eqb k TYield) eqn:e; [apply tt_eqb_eq in e; contradiction|reflexivity].
  Qed.

  Lemma keyword_word : forall k w, In k name_words \/ In k type_words \/ literal k = true /\ fixed_kind k = true ->
    k <> TConstNan -> k <> TConstInf -> display_type k = Some w ->
    exists c r, w = c :: r /\ is_digit c = false /\ forallb is_ident_char (c :: r) = true /\ map_keyword (c :: r) = Some k.
  Proof.
    intros k w h n1 n2 hw.
    assert (hx : In k (name_words ++ type_words ++
      [TFalse; TTrue; TNull; TConstDir; TConstFile; TConstFunction; TConstLine; TConstMethod; TConstTrait; TConstClass])).
    { rewrite !in_app_iff. destruct h as [h|[h|(h & hf)]]; auto. right. right.
      destruct k; cbn [literal fixed_kind] in h, hf; try discriminate h; try discriminate hf; try congruence;
        cbn [In]; auto 20. }
    clear h. unfold name_words, type_words in hx. cbn [app] in hx.
    repeat (destruct hx as [<-|hx];
      [injection hw as <-; eexists; eexists; split; [reflexivity|]; split; [reflexivity|]; split; reflexivity|]).
    destruct hx.
  Qed.

  (** [puts t w ok]: [w] is the spelling of [t] in front of any text with [ok]. *)
  Definition puts (t : Token) (w : str) (ok : str -> Prop) : Prop :=
    display_token t = Some w /\ forall rest, ok rest -> written_as (key_of t) w rest.

  Definition wordy (rest : str) : Prop := begins_word rest = false.

  Lemma forall_ident : forall l, Forall ident_char l -> forallb is_ident_char l = true.
  Proof.
    intros l h. apply forallb_forall. rewrite Forall_forall in h. intros x hx. specialize (h x hx).
    unfold is_ident_char. destruct h as [h| ->]; [rewrite h; reflexivity|apply orb_true_r].
  Qed.

  Lemma name_kinds : forall k, In k name_words -> fixed_kind k = true /\ loose k.
  Proof.
    intros k h. unfold name_words in h.
    repeat (destruct h as [<-|h]; [split; [reflexivity|split; [reflexivity|discriminate]]|]). destruct h.
  Qed.

  Lemma keyword_table_none : forall w, ~ In (to_lowercase w) (map lit all_keywords) -> w <> lit "INF" -> w <> lit "NAN" ->
    map_keyword w = None.
  Proof.
    intros w h h1 h2. unfold map_keyword. 
    destruct (str_eqb w (lit "INF")) eqn:e1; [apply str_eqb_eq in e1; contradiction|].
    destruct (str_eqb w (lit "NAN")) eqn:e2; [apply str_eqb_eq in e2; contradiction|]. clear e1 e2.
    revert h. generalize (to_lowercase w). intros s h. clear h1 h2.
    assert (hk : forall tb, (forall x, In x tb -> In (fst x) all_keywords) -> assoc_str s tb = None).
    { induction tb as [|(a & b) tb IH]; intros hin; [reflexivity|]. cbn [assoc_str].
      destruct (str_eqb s (lit a)) eqn:e.
      - apply str_eqb_eq in e. exfalso. apply h. rewrite e. apply in_map. apply (hin (a, b)). left. reflexivity.
      - apply IH. intros x hx. apply hin. right. exact hx. }
    apply hk. intros x hx.
    assert (hb : forallb (fun x => existsb (fun y => if string_dec (fst x) y then true else false) all_keywords) keyword_table = true)
      by (vm_compute; reflexivity).
    rewrite forallb_forall in hb. specialize (hb x hx). apply existsb_exists in hb as (y & hy & e).
    destruct (string_dec (fst x) y); [subst; exact hy|discriminate e].
  Qed.

  Definition word_start (w : str) : Prop := exists c r, w = c :: r /\ is_ident_char c = true /\ is_digit c = false.

  Lemma identifier_puts : forall t, tok TIdentifier t -> exists w, puts t w wordy /\ word_start w /\ loose (t_type t).
  Proof.
    intros t (hin & hk). destruct (in_true t hin) as (src & b & lex & r & _ & _ & hs).
    unfold spelled in hs. rewrite hk in hs. destruct hs as (hl & hn & hf & _ & hkw & h1 & h2 & hd).
    destruct lex as [|c w]; [contradiction|]. exists (c :: w). pose proof (forall_ident _ hf) as hi.
    split; [split|split].
    - unfold display_token. rewrite hl, hk. reflexivity.
    - intros rest hr. unfold key_of. rewrite hk, hl. apply W_identifier; auto.
      + apply (hd c w). reflexivity.
      + apply keyword_table_none; auto.
    - exists c, w. splits; [reflexivity| |apply (hd c w); reflexivity]. cbn [forallb] in hi. apply andb_true_iff in hi. tauto.
    - rewrite hk. split; [reflexivity|discriminate].
  Qed.

  Lemma word_puts : forall t, In t ts -> In (t_type t) name_words \/ In (t_type t) type_words -> fixed_kind (t_type t) = true ->
    exists w, puts t w wordy /\ word_start w.
  Proof.
    intros t hin hk hf. destruct (fixed_token t _ hin eq_refl hf) as (hd & hkey).
    assert (hn : t_type t <> TConstNan /\ t_type t <> TConstInf).
    { split; intros e; rewrite e in hk; cbn in hk; repeat (destruct hk as [hk|hk]; try discriminate hk; try contradiction). }
    destruct (display_type (t_type t)) as [w|] eqn:ew.
    - destruct (keyword_word (t_type t) w ltac:(tauto) (proj1 hn) (proj2 hn) ew) as (c & r & -> & g1 & g2 & g3).
      exists (c :: r). split; [split; [exact hd|]|].
      + intros rest hr. rewrite hkey. apply W_keyword; auto.
      + exists c, r. cbn [forallb] in g2. apply andb_true_iff in g2. tauto.
    - exfalso. destruct hk as [hk|hk]; unfold name_words, type_words in hk;
        repeat (destruct hk as [hk|hk]; [rewrite <- hk in ew; discriminate ew|]); destruct hk.
  Qed.

  Lemma name_puts : forall t, name t -> exists w, puts t w wordy /\ word_start w /\ loose (t_type t).
  Proof.
    intros t [h|(hin & hk)]; [apply identifier_puts; exact h|].
    destruct (name_kinds _ hk) as (hf & hl). destruct (word_puts t hin (or_introl hk) hf) as (w & h1 & h2). eauto 6.
  Qed.

  Lemma variable_puts : forall t, tok TVariable t -> exists w, puts t w wordy /\ loose (t_type t).
  Proof.
    intros t (hin & hk). destruct (in_true t hin) as (src & b & lex & r & _ & _ & hs).
    unfold spelled in hs. rewrite hk in hs. destruct hs as (_ & hs). unfold puts, display_token, key_of.
    rewrite hk. destruct (t_label t) as [l|].
    - destruct hs as (_ & hn & hf). exists (36 :: l). split; [split; [reflexivity|]|split; [reflexivity|discriminate]].
      intros rest hr. apply W_variable; auto. apply forall_ident. exact hf.
    - exists [36]. split; [split; [reflexivity|]|split; [reflexivity|discriminate]]. intros rest hr. apply W_dollar. exact hr.
  Qed.

  Lemma lower_digits : forall l, forallb is_digit l = true -> map ascii_lower l = l.
  Proof.
    induction l as [|c l IH]; intros h; [reflexivity|]. cbn [forallb] in h. apply andb_true_iff in h as [h1 h2]. cbn [map]. rewrite (IH h2).
    f_equal. unfold is_digit in h1. unfold ascii_lower, is_upper. apply andb_true_iff in h1 as [h1 h3]. apply N.leb_le in h1, h3.
    destruct ((65 <=? c) && (c <=? 90)) eqn:e; [|reflexivity]. apply andb_true_iff in e as [e _]. apply N.leb_le in e. lia.
  Qed.

  Lemma literal_puts : forall t, In t ts -> literal (t_type t) = true -> complete t ->
    exists w, puts t w ends /\ loose (t_type t).
  Proof.
    intros t hin hl hc.
    assert (hlo : loose (t_type t)). { destruct (t_type t); try discriminate hl; split; try reflexivity; discriminate. }
    destruct (fixed_kind (t_type t)) eqn:hf.
    - destruct (fixed_token t _ hin eq_refl hf) as (hd & hkey).
      assert (hn : t_type t <> TConstNan /\ t_type t <> TConstInf).
      { unfold complete in hc. split; intros e; rewrite e in hc; exact hc. }
      destruct (display_type (t_type t)) as [w|] eqn:ew.
      + destruct (keyword_word (t_type t) w ltac:(tauto) (proj1 hn) (proj2 hn) ew) as (c & r & -> & g1 & g2 & g3).
        exists (c :: r). split; [split; [exact hd|]|exact hlo]. intros rest (hr & _). rewrite hkey. apply W_keyword; auto.
      + exfalso. destruct (t_type t); try discriminate hl; try discriminate hf; discriminate ew.
    - destruct (in_true t hin) as (src & b & lex & r & _ & _ & hs). unfold spelled in hs. unfold complete in hc.
      unfold puts, display_token, key_of.
      destruct (t_type t); try discriminate hl; try discriminate hf.
      + (* decimal *) destruct hs as (a & b' & -> & ha & hb & hl'). rewrite hl'. eexists. split; [split; [reflexivity|]|exact hlo].
        intros rest (r1 & r2). destruct a as [|c a].
        * change (48 :: [] ++ [46] ++ b') with ([48] ++ [46] ++ b'). apply W_decimal; auto. discriminate.
        * apply W_decimal; auto. discriminate.
      + (* exponential *) destruct hs as (hl' & a & b' & e & sg & ds & -> & ha & hda & hdd & hb & he & hsg).
        assert (el : map ascii_lower (a ++ b' ++ [e] ++ sg ++ ds) = a ++ b' ++ [101] ++ sg ++ ds).
        { rewrite !map_app, (lower_digits a hda), (lower_digits ds hdd). f_equal. f_equal.
          - destruct hb as [-> |(x & -> & hx)]; [reflexivity|]. cbn [map]. rewrite (lower_digits x hx). reflexivity.
          - f_equal; [destruct he as [-> | ->]; reflexivity|]. f_equal. destruct hsg as [-> |[-> | ->]]; reflexivity. }
        rewrite hl', el in *. eexists. split; [split; [reflexivity|]|exact hlo].
        intros rest (r1 & r2). apply W_exponential; auto.
        destruct hsg as [-> |hsg]; [left|right; exact hsg]. split; [reflexivity|]. intros ->. destruct hc as (l & c & hl2 & hc).
        injection hl2 as hl2. cbn [app] in hl2. rewrite app_assoc in hl2. apply app_inj_tail in hl2 as [_ <-]. apply hc. reflexivity.
      + (* long *) destruct hs as (hl' & hn & hd). rewrite hl'. exists lex. split; [split; [reflexivity|]|exact hlo].
        intros rest (r1 & r2). apply W_long; auto.
      + (* hex *) destruct hs as (ds & hl' & -> & hd). rewrite hl'. eexists. split; [split; [reflexivity|]|exact hlo].
        intros rest (r1 & r2). apply W_hex; auto. apply forallb_forall. rewrite Forall_forall in hd. intros x hx. specialize (hd x hx).
        revert hd. clear. intros hd. repeat (destruct hd as [<-|hd]; [reflexivity|]). destruct hd.
      + (* binary *) destruct hs as (ds & hl' & -> & hd). rewrite hl'. eexists. split; [split; [reflexivity|]|exact hlo].
        intros rest (r1 & r2). apply W_binary; auto. apply forallb_forall. rewrite Forall_forall in hd. intros x hx. 
        destruct (hd x hx) as [-> | ->]; reflexivity.
      + destruct hc as (bd & -> & hq & h13). eexists. split; [split; [reflexivity|]|exact hlo].
        intros rest _. apply (W_quoted 39 TConstantEncapsedString bd); auto. unfold quote_kind; auto.
      + destruct hc as (bd & -> & hq & h13). eexists. split; [split; [reflexivity|]|exact hlo].
        intros rest _. apply (W_quoted 34 TEncapsedAndWhitespaceString bd); auto. unfold quote_kind; auto.
      + destruct hc as (bd & -> & hq & h13). eexists. split; [split; [reflexivity|]|exact hlo].
        intros rest _. apply (W_quoted 96 TShellEscape bd); auto. unfold quote_kind; auto.
  Qed.

  (** ** Putting texts together *)

  Lemma in_symbols : forall k s b, List.find (fun x => tt_eqb (fst (fst x)) k) symbols = Some (k, s, b) -> In (k, s, b) symbols.
  Proof. intros k s b h. apply List.find_some in h. tauto. Qed.
  Ltac insym := eapply in_symbols; reflexivity.

  Definition hard (w : str) (ks : list key) : Prop :=
    forall rest kr, spells rest kr -> spells (w ++ rest) (ks ++ kr).
  Definition soft (w : str) (ks : list key) : Prop :=
    forall rest kr, ends rest -> spells rest kr -> spells (w ++ rest) (ks ++ kr).
  Definition no_close (ks : list key) : Prop :=
    match ks with (k, _) :: _ => k <> TCloseParenthesis | [] => True end.
  Definition typed (w : str) (ks : list key) : Prop :=
    forall rest kr, ends rest -> no_close kr -> spells rest kr -> spells (w ++ rest) (ks ++ kr).

  Lemma hard_soft : forall w k, hard w k -> soft w k.
  Proof. intros w k h rest kr _ hr. apply h. exact hr. Qed.

  Lemma sp_space : forall R K, spells R K -> spells (lit " " ++ R) K.
  Proof. intros. apply (S_white 32); auto. Qed.
  Lemma sp_newline : forall R K, spells R K -> spells (newline ++ R) K.
  Proof. intros. apply (S_white 10); auto. Qed.
  Lemma sp_blanks : forall n R K, spells R K -> spells (repeat 32 n ++ R) K.
  Proof. induction n; intros R K h; [exact h|]. cbn [repeat app]. apply S_white; auto. Qed.
  Lemma sp_lines : forall n R K, spells R K -> spells (repeat 10 n ++ R) K.
  Proof. induction n; intros R K h; [exact h|]. cbn [repeat app]. apply S_white; auto. Qed.

  Lemma symbol_loose : forall k s b ks, In (k, s, b) symbols -> sticks k ks = false.
  Proof.
    intros k s b ks h. apply loose_sticks. unfold symbols in h.
    repeat (destruct h as [h|h]; [injection h as <- <- <-; split; [reflexivity|discriminate]|]). destruct h.
  Qed.
  Lemma sp_sym : forall k s R K, In (k, s, true) symbols -> spells R K -> spells (lit s ++ R) (sym k :: K).
  Proof. intros k s R K h hr. apply S_token; [eapply W_symbol; [exact h|left; reflexivity]|eapply symbol_loose; exact h|exact hr]. Qed.
  Lemma sp_any : forall k s b R K, In (k, s, b) symbols -> begins_operator R = false -> spells R K ->
    spells (lit s ++ R) (sym k :: K).
  Proof. intros k s b R K h hb hr. apply S_token; [eapply W_symbol; [exact h|right; exact hb]|eapply symbol_loose; exact h|exact hr]. Qed.
  Lemma sp_close : forall R K, spells R K -> spells (lit ")" ++ R) (sym TCloseParenthesis :: K).
  Proof. intros R K hr. apply S_token; [apply W_close|apply loose_sticks; split; [reflexivity|discriminate]|exact hr]. Qed.

  Definition keywords : list (TokenType * string) :=
    [(TIf, "if"); (TElseIf, "elseif"); (TElse, "else"); (TWhile, "while"); (TDo, "do"); (TFor, "for");
     (TForeach, "foreach"); (TAs, "as"); (TEcho, "echo"); (TPrint, "print"); (TReturn, "return"); (TBreak, "break");
     (TContinue, "continue"); (TFunction, "function"); (TFn, "fn"); (TNamespace, "namespace"); (TClass, "class");
     (TAbstract, "abstract"); (TFinal, "final"); (TExtends, "extends"); (TImplements, "implements");
     (TPublic, "public"); (TProtected, "protected"); (TPrivate, "private"); (TVar, "var"); (TStatic, "static");
     (TConst, "const"); (TNew, "new"); (TClone, "clone"); (TIsset, "isset"); (TEmpty, "empty");
     (TRequire, "require"); (TRequireOnce, "require_once"); (TInclude, "include"); (TIncludeOnce, "include_once");
     (TInstanceOf, "instanceof"); (TLogicXor, "xor")]%string.
  Lemma in_keywords : forall k s, List.find (fun x => tt_eqb (fst x) k) keywords = Some (k, s) -> In (k, s) keywords.
  Proof. intros k s h. apply List.find_some in h. tauto. Qed.
  Ltac inkey := eapply in_keywords; reflexivity.
  Lemma sp_key : forall k s R K, In (k, s) keywords -> begins_word R = false -> spells R K -> spells (lit s ++ R) (sym k :: K).
  Proof.
    intros k s R K h hb hr. unfold keywords in h.
    repeat (destruct h as [h|h];
      [injection h as <- <-; apply S_token;
       [apply W_keyword; [reflexivity|reflexivity|reflexivity|exact hb]|apply loose_sticks; split; [reflexivity|discriminate]|exact hr]|]).
    destruct h.
  Qed.
  Lemma sp_array : forall R K, spells R (sym TOpenParenthesis :: K) -> begins_word R = false ->
    spells (lit "array" ++ R) (sym TTypeArray :: sym TOpenParenthesis :: K).
  Proof. intros R K hr hb. apply S_token; [apply W_keyword; [reflexivity|reflexivity|reflexivity|exact hb]|reflexivity|exact hr]. Qed.

  Lemma sp_token : forall t w ok R K, puts t w ok -> loose (t_type t) -> ok R -> spells R K -> spells (w ++ R) (key_of t :: K).
  Proof. intros t w ok R K (_ & h) hl ho hr. apply S_token; [apply h; exact ho|apply loose_sticks; exact hl|exact hr]. Qed.

  (** *** Operators *)

  Lemma infix_puts : forall t, In t ts -> infix_operator t -> exists w, display_token t = Some w /\
    forall R K, spells R K -> spells (w ++ lit " " ++ R) (sym (t_type t) :: K).
  Proof.
    intros t hin (r & a & hr).
    assert (hf : fixed_kind (t_type t) = true) by (destruct (t_type t); try discriminate hr; reflexivity).
    destruct (fixed_token t _ hin eq_refl hf) as (hd & _). rewrite hd. clear hd hf hin.
    destruct (t_type t); try discriminate hr;
      (eexists; split; [reflexivity|]; intros R K h;
       first [ apply sp_key; [inkey|reflexivity|apply sp_space; exact h]
             | eapply sp_any; [insym|reflexivity|apply sp_space; exact h] ]).
  Qed.
  Lemma prefix_puts : forall t, one_of prefix_operators t -> exists w, display_token t = Some w /\
    forall R K, spells R K -> spells (w ++ lit " " ++ R) (sym (t_type t) :: K).
  Proof.
    intros t (hin & h).
    assert (hf : fixed_kind (t_type t) = true)
      by (unfold prefix_operators in h; repeat (destruct h as [<-|h]; [reflexivity|]); destruct h).
    destruct (fixed_token t _ hin eq_refl hf) as (hd & _). rewrite hd. clear hd hf hin. unfold prefix_operators in h.
    repeat (destruct h as [<-|h];
      [eexists; split; [reflexivity|]; intros R K hr;
       first [ apply sp_key; [inkey|reflexivity|apply sp_space; exact hr]
             | eapply sp_any; [insym|reflexivity|apply sp_space; exact hr] ]|]).
    destruct h.
  Qed.

  (** *** Names and types *)

  Definition path_of (ok : Token -> Prop) (l : list Token) : Prop := path ts ok l.

  Lemma path_put : forall (ok : Token -> Prop) (fol : list key -> Prop),
    (forall t, ok t -> In t ts /\ t_type t <> THereDocEnd /\ exists w, puts t w wordy /\ word_start w /\
       forall ks, fol ks -> sticks (t_type t) ks = false) ->
    (forall K, fol (sym TNamespaceSeparator :: K)) ->
    forall l, path ts ok l -> exists w, display_tokens l = Some w /\ begins_operator w = false /\ w <> [] /\
      (forall t, In t l -> In t ts /\ t_type t <> THereDocEnd) /\ l <> [] /\
      forall R K, ends R -> fol K -> spells R K -> spells (w ++ R) (map key_of l ++ K).
  Proof.
    intros ok fol hok hsep l h. induction h as [t ht|s l hs hl IH hn|t s l ht hs hl IH hn].
    - destruct (hok t ht) as (hin & hk & w & hp & (c & r & -> & hc & hd) & hst). exists (c :: r). cbn [display_tokens].
      rewrite (proj1 hp). cbn [obind]. rewrite app_nil_r. splits; try discriminate; auto.
      + unfold begins_operator. rewrite hd. cbn [orb]. 
        destruct (existsb (N.eqb c) (lit "=&|<>+-*./?:[")) eqn:e; [|reflexivity]. exfalso.
        apply existsb_exists in e as (x & hx & e). apply N.eqb_eq in e. subst x.
        repeat (destruct hx as [<-|hx]; [discriminate hc|]). destruct hx.
      + intros x [<-|[]]. auto.
      + intros R K (hR & _) hf hr. cbn [map app]. destruct hp as (_ & hp). change (spells ((c :: r) ++ R) (key_of t :: K)).
        apply S_token; [apply hp; exact hR|apply hst; exact hf|exact hr].
    - destruct IH as (w & e & hb & hn' & hin & hne & hsp). destruct hs as (hs1 & hs2).
      destruct (fixed_token s _ hs1 hs2 eq_refl) as (hd & hk). exists (lit "\" ++ w). cbn [display_tokens].
      rewrite hd. cbn [display_type]. cbn [obind]. rewrite e. cbn [obind]. splits; try discriminate; auto.
      + intros x [<-|hx]; [|auto]. rewrite hs2. split; [exact hs1|discriminate].
      + intros R K hR hf hr. cbn [map]. rewrite hk, <- app_assoc. cbn [app].
        apply (sp_sym TNamespaceSeparator "\"%string); [insym|]. apply hsp; auto.
    - destruct IH as (w & e & hb & hn' & hin & hne & hsp). destruct hs as (hs1 & hs2).
      destruct (hok t ht) as (hin' & hk' & w' & hp & (c & r & -> & hc & hd') & hst).
      destruct (fixed_token s _ hs1 hs2 eq_refl) as (hd & hk). exists ((c :: r) ++ lit "\" ++ w). cbn [display_tokens].
      rewrite hd, (proj1 hp). cbn [display_type]. cbn [obind]. rewrite e. cbn [obind]. splits; try discriminate; auto.
      + unfold begins_operator. cbn [app]. rewrite hd'. cbn [orb].
        destruct (existsb (N.eqb c) (lit "=&|<>+-*./?:[")) eqn:e'; [|reflexivity]. exfalso.
        apply existsb_exists in e' as (x & hx & e'). apply N.eqb_eq in e'. subst x.
        repeat (destruct hx as [<-|hx]; [discriminate hc|]). destruct hx.
      + intros x [<-|[<-|hx]]; [auto| |auto]. rewrite hs2. split; [exact hs1|discriminate].
      + intros R K hR hf hr. cbn [map]. rewrite hk, <- !app_assoc. cbn [map app]. destruct hp as (_ & hp).
        change (spells ((c :: r) ++ lit "\" ++ w ++ R) (key_of t :: sym TNamespaceSeparator :: map key_of l ++ K)).
        apply S_token; [apply hp; reflexivity|apply hst; apply hsep|].
        apply (sp_sym TNamespaceSeparator "\"%string); [insym|]. apply hsp; auto.
  Qed.

  Lemma name_path : forall l, path ts name l -> exists w, display_tokens l = Some w /\ begins_operator w = false /\ w <> [] /\
      (forall t, In t l -> In t ts /\ t_type t <> THereDocEnd) /\ l <> [] /\ soft w (map key_of l).
  Proof.
    intros l h. destruct (path_put name (fun _ => True)) with (l := l) as (w & h1 & h2 & h3 & h4 & h5 & h6); auto.
    - intros t ht. destruct (name_puts t ht) as (w & hp & hw & hl). splits.
      + destruct ht as [(a & _)|(a & _)]; exact a.
      + destruct ht as [(_ & a)|(_ & a)]; [rewrite a; discriminate|]. intros e. rewrite e in a. unfold name_words in a.
        repeat (destruct a as [a|a]; [discriminate a|]). destruct a.
      + exists w. splits; auto. intros ks _. apply loose_sticks. exact hl.
    - exists w. splits; auto. intros R K hR hr. apply h6; auto.
  Qed.

  Lemma type_path : forall l, path ts (type_name ts) l -> exists w, display_tokens l = Some w /\ begins_operator w = false /\ w <> [] /\
      (forall t, In t l -> In t ts /\ t_type t <> THereDocEnd) /\ l <> [] /\ typed w (map key_of l).
  Proof.
    intros l h. destruct (path_put (type_name ts) no_close) with (l := l) as (w & h1 & h2 & h3 & h4 & h5 & h6); auto.
    - intros t [ht|(hin & ht)].
      + destruct (name_puts t ht) as (w & hp & hw & hl). splits.
        * destruct ht as [(a & _)|(a & _)]; exact a.
        * destruct ht as [(_ & a)|(_ & a)]; [rewrite a; discriminate|]. intros e. rewrite e in a. unfold name_words in a.
          repeat (destruct a as [a|a]; [discriminate a|]). destruct a.
        * exists w. splits; auto. intros ks _. apply loose_sticks. exact hl.
      + assert (hx : fixed_kind (t_type t) = true /\ t_type t <> THereDocEnd /\ t_type t <> TYield).
        { unfold type_words in ht. repeat (destruct ht as [<-|ht]; [splits; try reflexivity; discriminate|]). destruct ht. }
        destruct hx as (hf & h1 & h2). destruct (word_puts t hin (or_intror ht) hf) as (w & hp & hw). splits; auto.
        exists w. splits; auto. intros ks hn. unfold sticks. destruct ks as [|(k2 & l2) ks]; [reflexivity|].
        cbn [no_close] in hn. destruct (tt_eqb k2 TCloseParenthesis) eqn:e; [apply tt_eqb_eq in e; contradiction|].
        destruct (tt_eqb (t_type t) TYield) eqn:e2; [apply tt_eqb_eq in e2; contradiction|]. rewrite andb_false_r. reflexivity.
    - intros K. cbn. discriminate.
    - exists w. splits; auto.
  Qed.

  (** ** Trees *)

  Definition has_range (n : Node) : Prop := exists r, node_range n = Some r.
  Definition writes (P : str -> list key -> Prop) (n : Node) (ks : list key) : Prop :=
    forall line col, exists w, format_node n line col = Some w /\ P w ks.

  Lemma tref_ranged : forall l, l <> [] -> (forall t, In t l -> In t ts /\ t_type t <> THereDocEnd) ->
    has_range (NTypeRef (tref_one l)).
  Proof.
    intros l hn h. unfold has_range. cbn [node_range]. unfold tref_range, tref_one. cbn [kind].
    destruct l as [|a l]; [contradiction|]. cbn [first_opt obind].
    assert (hl : exists z, last_opt (a :: l) = Some z /\ In z (a :: l)).
    { unfold last_opt. destruct (rev (a :: l)) as [|z r] eqn:e.
      - apply (f_equal (@List.length Token)) in e. rewrite rev_length in e. discriminate e.
      - exists z. split; [reflexivity|]. apply in_rev. rewrite e. left. reflexivity. }
    destruct hl as (z & -> & hz). cbn [obind].
    destruct (h a (or_introl eq_refl)) as (h1 & h2). destruct (h z hz) as (h3 & h4).
    destruct (ranged a h1 h2) as (ra & ->). destruct (ranged z h3 h4) as (rz & ->). cbn [obind]. eauto.
  Qed.

  Lemma last_range : forall l, l <> [] -> Forall has_range l -> exists r, rng_last (map node_range l) = Some r.
  Proof.
    intros l hn h. unfold rng_last, last_opt. destruct (rev (map node_range l)) as [|z r] eqn:e.
    - apply (f_equal (@List.length _)) in e. rewrite rev_length, map_length in e. destruct l; [contradiction|discriminate e].
    - cbn [obind]. assert (hz : In z (map node_range l)) by (apply in_rev; rewrite e; left; reflexivity).
      apply in_map_iff in hz as (n & <- & hin). rewrite Forall_forall in h. exact (h n hin).
  Qed.
  Lemma first_range : forall l, l <> [] -> Forall has_range l -> exists r, rng_first (map node_range l) = Some r.
  Proof.
    intros l hn h. destruct l as [|n l]; [contradiction|]. inversion h as [|x y (r & hr) hl]; subst. cbn. rewrite hr. cbn. eauto.
  Qed.

  Ltac split_text :=
    change (lit ", ") with (lit "," ++ lit " ") in *;
    change (lit ") ") with (lit ")" ++ lit " ") in *;
    change (lit " (") with (lit " " ++ lit "(") in *;
    change (lit "; ") with (lit ";" ++ lit " ") in *;
    change (lit ");") with (lit ")" ++ lit ";") in *;
    change (lit " as ") with (lit " " ++ lit "as" ++ lit " ") in *;
    change (lit " = ") with (lit " " ++ lit "=" ++ lit " ") in *;
    change (lit " | ") with (lit " " ++ lit "|" ++ lit " ") in *;
    change (lit "while (") with (lit "while" ++ lit " " ++ lit "(") in *;
    change (lit " while (") with (lit " " ++ lit "while" ++ lit " " ++ lit "(") in *;
    change (lit "for (") with (lit "for" ++ lit " " ++ lit "(") in *;
    change (lit "foreach (") with (lit "foreach" ++ lit " " ++ lit "(") in *;
    change (lit "do ") with (lit "do" ++ lit " ") in *;
    change (lit "else ") with (lit "else" ++ lit " ") in *;
    change (lit " extends ") with (lit " " ++ lit "extends" ++ lit " ") in *;
    change (lit " implements ") with (lit " " ++ lit "implements" ++ lit " ") in *;
    change (lit "") with (@nil N) in *.
  Ltac norm := split_text; repeat (rewrite <- !app_assoc in * || rewrite !app_nil_r in * || (progress (cbn [app]))).

  (** types *)
  Lemma types_put : forall l k, types ts l k -> Forall has_range l /\ l <> [] /\
    forall line col, exists w, joined (lit " | ") (map (fun n => format_node n line col) l) = Some w /\
      begins_operator w = false /\ w <> [] /\ typed w k.
  Proof.
    intros l k h. induction h as [l h|l r ks h hr IH].
    - destruct (type_path l h) as (w & e & hb & hn & hin & hne & hsp). splits; [|discriminate|].
      + repeat constructor. apply tref_ranged; auto.
      + intros line col. exists w. cbn [map joined]. splits; auto.
    - destruct (type_path l h) as (w & e & hb & hn & hin & hne & hsp). destruct IH as (i1 & i2 & i3). splits; [|discriminate|].
      + constructor; [|exact i1]. apply tref_ranged; auto.
      + intros line col. destruct (i3 line col) as (w' & e' & hb' & hn' & hsp').
        exists (w ++ lit " | " ++ w'). cbn [map]. destruct r as [|n r]; [contradiction|]. cbn [map] in *.
        cbn [joined]. cbn [joined] in e'. rewrite e'. change (format_node (NTypeRef (tref_one l)) line col) with (display_tokens l).
        rewrite e. cbn [cat obind]. rewrite app_nil_r. splits; auto.
        * destruct w as [|c w]; [contradiction|exact hb].
        * destruct w; [contradiction|discriminate].
        * intros R K hR hc hr'. norm. apply hsp; [split; reflexivity|exact I || (cbn; discriminate)|].
          apply sp_space. apply (sp_any TBinaryOr "|"%string false); [insym|reflexivity|].
          apply sp_space. apply hsp'; auto.
  Qed.

  Lemma data_type_put : forall n k, data_type ts n k -> has_range n /\ writes typed n k.
  Proof.
    intros n k h. destruct h as [l ks h|q l ks (q1 & q2) h]; destruct (types_put l ks h) as (h1 & h2 & h3).
    - split.
      + unfold has_range. cbn [node_range]. destruct (first_range l h2 h1) as (a & ->). destruct (last_range l h2 h1) as (b & ->).
        cbn. eauto.
      + intros line col. destruct (h3 line col) as (w & e & hb & hn & hw). cbn [format_node]. cbn [unpadded text cat obind].
        rewrite e. cbn [cat obind]. norm. eexists. split; [reflexivity|]. exact hw.
    - split.
      + unfold has_range. cbn [node_range]. destruct (last_range l h2 h1) as (b & ->). cbn. eauto.
      + intros line col. destruct (h3 line col) as (w & e & hb & hn & hw). cbn [format_node]. cbn [unpadded text cat obind].
        rewrite e, (proj1 (fixed_token q _ q1 q2 eq_refl)). cbn [display_type]. cbn [cat obind]. norm. eexists. split; [reflexivity|].
        intros R K hR hc hr. norm. apply (sp_any TQuestionMark "?"%string false); [insym| |apply hw; auto].
        destruct w; [contradiction|exact hb].
  Qed.

  Definition opt_node (line col : N) (o : option Node) : option (option str) := option_map (fun n => format_node n line col) o.

  Lemma return_type_put : forall o k, return_type ts o k -> forall line col, exists w,
    optional_one "" "" (opt_node line col o) = Some w /\ (w = [] \/ ends w) /\
    (forall rest kr, ends rest -> no_close kr -> spells rest kr -> spells (w ++ rest) (k ++ kr)).
  Proof.
    intros o k h line col. destruct h as [|c n ks (c1 & c2) h].
    - exists []. splits; auto. 
    - destruct (data_type_put n ks h) as (_ & hw). destruct (hw line col) as (w & e & hp).
      unfold opt_node. cbn [option_map optional_one format_node]. rewrite e, (proj1 (fixed_token c _ c1 c2 eq_refl)).
      cbn [display_type]. cbn [cat obind text]. eexists. split; [reflexivity|]. norm. split.
      + right. split; reflexivity.
      + intros R K hR hc hr. norm. apply (sp_any TColon ":"%string false); [insym|reflexivity|].
        apply sp_space. apply hp; auto.
  Qed.

  Lemma names_put : forall l k, names ts l k -> forall line col, exists w,
    joined (lit ", ") (map (fun n => format_node n line col) l) = Some w /\ soft w k.
  Proof.
    intros l k h. induction h as [l h|l r ks h hr IH]; intros line col;
      destruct (name_path l h) as (w & e & hb & hn & hin & hne & hsp).
    - exists w. split; [exact e|exact hsp].
    - destruct (IH line col) as (w' & e' & hw'). destruct r as [|n r]; [inversion hr|].
      cbn [map joined] in *. rewrite e'. change (format_node (NTypeRef (tref_one l)) line col) with (display_tokens l). rewrite e.
      cbn [cat obind]. eexists. split; [reflexivity|]. intros R K hR hr'. norm. apply hsp; [split; reflexivity|].
      apply (sp_sym TComma ","%string); [insym|]. apply sp_space. apply hw'; auto.
  Qed.
End FormatFacts.
