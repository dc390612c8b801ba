(** Reading a text that was put together from the spellings of tokens.

    [spells w ks] says that the text [w] is made of white space and the
    spellings of the tokens [ks], each followed by something that does not run
    into it; [spells_scan] that the scanner then finds exactly these tokens. *)

From Coq Require Import Bool.
From Verif Require Import Base Token TokenFacts Scanner SpecScanner ScannerFacts ScannerMore.

(** What is compared of a token: its kind and its label. *)
Definition key : Type := TokenType * option str.
Definition key_of (t : Token) : key := (t_type t, t_label t).

Section Respell.
  Context {RT : Runtime}.

  Definition begins_word (s : str) : bool := match s with c :: _ => is_ident_char c | [] => false end.
  Definition begins_dot (s : str) : bool := match s with c :: _ => c =? 46 | [] => false end.
  (** a character that could make a longer operator of the one in front of it *)
  Definition begins_operator (s : str) : bool :=
    match s with c :: _ => is_digit c || existsb (N.eqb c) (lit "=&|<>+-*./?:[") | [] => false end.

  (** Operators and punctuation; those marked [true] can be followed by
      anything. *)
  Definition symbols : list (TokenType * string * bool) :=
    [ (TPaamayimNekudayim, "::", true); (TColon, ":", false); (TSilencer, "@", true);
      (TBitwiseNegation, "~", true); (TComma, ",", true); (TNamespaceSeparator, "\", true);
      (TBinaryAndAssignment, "&=", true); (TLogicAnd, "&&", true); (TBinaryAnd, "&", false);
      (TModuloAssignment, "%=", true); (TModulo, "%", false);
      (TBinaryOrAssignment, "|=", true); (TLogicOr, "||", true); (TBinaryOr, "|", false);
      (TRightShiftAssignment, ">>=", true); (TRightShift, ">>", false); (TGreaterOrEqual, ">=", true);
      (TGreater, ">", false);
      (TLeftShiftAssignment, "<<=", true); (TLeftShift, "<<", false); (TSpaceShip, "<=>", true);
      (TSmallerOrEqual, "<=", false); (TIsNotEqualAlt, "<>", true); (TSmaller, "<", false);
      (TCoalesceAssignment, "??=", true); (TCoalesce, "??", false);
      (TNullsafeObjectOperator, "?->", true); (TQuestionMark, "?", false);
      (TIsNotIdentical, "!==", true); (TIsNotEqual, "!=", false); (TNegation, "!", false);
      (TElipsis, "...", true); (TConcatAssignment, ".=", true); (TConcat, ".", false);
      (TXorAssignment, "^=", true); (TBinaryXor, "^", false);
      (TIncrement, "++", true); (TPlusAssign, "+=", true); (TPlus, "+", false);
      (TDecrement, "--", true); (TMinusAssign, "-=", true); (TObjectOperator, "->", true); (TMinus, "-", false);
      (TPowerAssignment, "**=", true); (TPower, "**", false); (TMulAssign, "*=", true);
      (TMultiplication, "*", false); (TDivAssign, "/=", true); (TDivision, "/", false);
      (TAttributeStart, "#[", true);
      (TIsIdentical, "===", true); (TIsEqual, "==", false); (TDoubleArrow, "=>", true); (TAssignment, "=", false);
      (TOpenParenthesis, "(", true); (TOpenCurly, "{", true); (TCloseCurly, "}", true);
      (TOpenBrackets, "[", true); (TCloseBrackets, "]", true); (TSemicolon, ";", true)]%string.

  (** [written_as k w rest]: the token [k] can be written [w] in front of [rest]. *)
  Inductive written_as : key -> str -> str -> Prop :=
  | W_symbol : forall k w tight rest, In (k, w, tight) symbols ->
      (tight = true \/ begins_operator rest = false) -> written_as (k, None) (lit w) rest
  | W_close : forall rest, written_as (TCloseParenthesis, None) (lit ")") rest
  | W_keyword : forall k c w rest, is_digit c = false -> forallb is_ident_char (c :: w) = true ->
      map_keyword (c :: w) = Some k -> begins_word rest = false -> written_as (k, None) (c :: w) rest
  | W_identifier : forall c w rest, is_digit c = false -> forallb is_ident_char (c :: w) = true ->
      map_keyword (c :: w) = None -> begins_word rest = false ->
      written_as (TIdentifier, Some (c :: w)) (c :: w) rest
  | W_variable : forall w rest, w <> [] -> forallb is_ident_char w = true -> begins_word rest = false ->
      written_as (TVariable, Some w) (36 :: w) rest
  | W_dollar : forall rest, begins_word rest = false -> written_as (TVariable, None) [36] rest
  | W_hex : forall ds rest, forallb is_hex ds = true -> begins_word rest = false ->
      written_as (THexNumber, Some (lit "0x" ++ ds)) (lit "0x" ++ ds) rest
  | W_binary : forall ds rest, forallb is_binary ds = true -> begins_word rest = false ->
      written_as (TBinaryNumber, Some (lit "0b" ++ ds)) (lit "0b" ++ ds) rest
  | W_long : forall ds rest, ds <> [] -> forallb is_digit ds = true ->
      begins_word rest = false -> begins_dot rest = false -> written_as (TLongNumber, Some ds) ds rest
  | W_decimal : forall a b rest, a <> [] -> forallb is_digit a = true -> forallb is_digit b = true ->
      begins_word rest = false ->
      written_as (TDecimalNumber, Some (a ++ [46] ++ b)) (a ++ [46] ++ b) rest
  | W_exponential : forall a b sg ds rest, a <> [] -> forallb is_digit a = true -> forallb is_digit ds = true ->
      (b = [] \/ exists b', b = 46 :: b' /\ forallb is_digit b' = true) ->
      (sg = [] /\ ds <> [] \/ sg = [45] \/ sg = [43]) -> begins_word rest = false ->
      written_as (TExponentialNumber, Some (a ++ b ++ [101] ++ sg ++ ds)) (a ++ b ++ [101] ++ sg ++ ds) rest
  | W_quoted : forall q k body rest, quote_kind q k -> quoted_body q body -> ~ In 13 body ->
      written_as (k, Some body) (q :: body ++ [q]) rest.

  (** [(int)] is one token, and so is [yield from]. *)
  Definition sticks (k : TokenType) (ks : list key) : bool :=
    match ks with
    | (k2, l2) :: _ =>
        (is_some (map_cast k) && tt_eqb k2 TCloseParenthesis)
        || (tt_eqb k TYield && tt_eqb k2 TIdentifier
            && match l2 with Some l => str_eqb l (lit "from") | None => false end)
    | [] => false
    end.

  Inductive spells : str -> list key -> Prop :=
  | S_end : spells [] []
  | S_white : forall c w ks, c = 32 \/ c = 10 -> spells w ks -> spells (c :: w) ks
  | S_token : forall k w rest ks, written_as k w rest -> sticks (fst k) ks = false -> spells rest ks ->
      spells (w ++ rest) (k :: ks).

  (** ** Single steps of the scanner *)

  Definition stepped (s s' : Scn) (rest : str) (k : key) : Prop :=
    s_chars s' = rest /\ s_ctx s' = InScript /\
    exists t lbs, s_toks s' = t :: lbs ++ s_toks s /\ Forall is_lb lbs /\ key_of t = k.

  Lemma collect_forward : forall p n w acc s rest,
    (forall c, p c = true -> c <> 10 /\ c <> 13) -> forallb p w = true ->
    match rest with c :: _ => p c = false | [] => True end ->
    s_chars s = w ++ rest -> (List.length w < n)%nat ->
    exists s', collect_while n p acc s = SOk (rev acc ++ w, s') /\ s_chars s' = rest /\ s_ctx s' = s_ctx s
      /\ s_toks s' = s_toks s /\ s_start s' = s_start s.
  Proof.
    intros p n w. revert n. induction w as [|c w IH]; intros n acc s rest hp hw hr hc hn;
      (destruct n; [cbn in hn; lia|]); cbn [collect_while]; unfold peek; rewrite hc; cbn [app hd_error].
    - rewrite app_nil_r. destruct rest as [|c r]; cbn [hd_error]; [|rewrite hr]; eauto 10.
    - cbn [forallb] in hw. apply andb_true_iff in hw as [h1 h2]. rewrite h1. destruct (hp _ h1) as [q1 q2].
      destruct (skip_cons s c (w ++ rest) hc q2) as (lbs & b1 & b2 & b3 & b4 & _ & b5).
      rewrite (b5 q1) in b4. cbn [app] in b4.
      destruct (IH n (c :: acc) (skip s) rest hp h2 hr b1) as (s' & e1 & e2 & e3 & e4 & e5); [cbn in hn; lia|].
      exists s'. rewrite e1. cbn [rev]. rewrite <- app_assoc. splits; auto; congruence.
  Qed.

  Lemma ident_plain : forall c, is_ident_char c = true -> c <> 10 /\ c <> 13.
  Proof. intros c h. split; intros ->; discriminate h. Qed.
  Lemma digit_plain : forall c, is_digit c = true -> c <> 10 /\ c <> 13.
  Proof. intros c h. split; intros ->; discriminate h. Qed.
  Lemma hex_plain : forall c, is_hex c = true -> c <> 10 /\ c <> 13.
  Proof. intros c h. split; intros ->; discriminate h. Qed.
  Lemma binary_plain : forall c, is_binary c = true -> c <> 10 /\ c <> 13.
  Proof. intros c h. split; intros ->; discriminate h. Qed.

  (** *** Symbols *)
  Lemma symbol_step : forall k w tight rest s c cs,
    In (k, w, tight) symbols -> (tight = true \/ begins_operator rest = false) ->
    lit w = c :: cs -> s_ctx s = InScript -> s_chars s = cs ++ rest ->
    exists s', scan_char c s = SOk s' /\ s_chars s' = rest /\ s_ctx s' = InScript
      /\ exists t, s_toks s' = t :: s_toks s /\ key_of t = (k, None).
  Proof.
    intros k w tight rest [col st line ctx toks chars] c cs hin hf hw hc hs. cbn [s_ctx s_chars] in hc, hs. subst ctx chars.
    assert (hf' : tight = true \/ rest = [] \/ exists x r, rest = x :: r /\ is_digit x = false
      /\ (x =? 61) = false /\ (x =? 38) = false /\ (x =? 124) = false /\ (x =? 60) = false /\ (x =? 62) = false
      /\ (x =? 43) = false /\ (x =? 45) = false /\ (x =? 42) = false /\ (x =? 46) = false /\ (x =? 47) = false
      /\ (x =? 63) = false /\ (x =? 58) = false /\ (x =? 91) = false).
    { destruct hf as [h|h]; [left; exact h|right]. destruct rest as [|x r]; [left; reflexivity|right]. exists x, r. split; [reflexivity|].
      unfold begins_operator in h. apply orb_false_iff in h as [h1 h2]. split; [exact h1|].
      change (existsb (N.eqb x) (lit "=&|<>+-*./?:[")) with
        ((x =? 61) || ((x =? 38) || ((x =? 124) || ((x =? 60) || ((x =? 62) || ((x =? 43) || ((x =? 45) || ((x =? 42)
          || ((x =? 46) || ((x =? 47) || ((x =? 63) || ((x =? 58) || ((x =? 91) || false))))))))))))) in h2.
      repeat (apply orb_false_iff in h2 as [? h2]). splits; auto. }
    clear hf. unfold symbols in hin.
    repeat (destruct hin as [hin|hin];
      [injection hin as <- <- <-; injection hw as <- <-;
       first
       [ solve [eexists; split; [reflexivity|]; split; [reflexivity|]; split; [reflexivity|];
                eexists; split; reflexivity]
       | destruct hf' as [hf'|[->|(x & r & -> & g0 & g1 & g2 & g3 & g4 & g5 & g6 & g7 & g8 & g9 & g10 & g11 & g12 & g13)]];
         [discriminate hf'
         |solve [eexists; split; [reflexivity|]; split; [reflexivity|]; split; [reflexivity|];
                eexists; split; reflexivity]
         |eexists; split;
          [unfold scan_char, peek_is, peek, skip, advance; cbn [s_chars hd_error app advance_on snd]; cbn;
           rewrite ?g0, ?g1, ?g2, ?g3, ?g4, ?g5, ?g6, ?g7, ?g8, ?g9, ?g10, ?g11, ?g12, ?g13; reflexivity
          |split; [reflexivity|]; split; [reflexivity|]; eexists; split; reflexivity]] ]
      |]).
    destruct hin.
  Qed.

  (** *** Words *)
  Lemma word_char : forall c s, is_ident_char c = true -> is_digit c = false -> scan_char c s = scan_word c s.
  Proof.
    intros c s h d. unfold scan_char. rewrite d.
    repeat match goal with
    | |- (if (c =? ?k) then _ else _) = _ =>
        destruct (N.eqb_spec c k) as [->|_]; [discriminate h|]
    | |- (if (_ || (c =? ?k)) then _ else _) = _ =>
        destruct (N.eqb_spec c k) as [->|_]; [discriminate h|rewrite orb_false_r]
    end. reflexivity.
  Qed.

  Lemma rest_word : forall rest, begins_word rest = false ->
    match rest with c :: _ => is_ident_char c = false | [] => True end.
  Proof. intros [|c r] h; [exact I|exact h]. Qed.

  Lemma fuel_enough : forall s (w rest : str), s_chars s = w ++ rest -> (List.length w < fuel_of s)%nat.
  Proof. intros s w rest h. unfold fuel_of. rewrite h, app_length. lia. Qed.

  Lemma scan_word_step : forall c w s rest, is_ident_char c = true -> forallb is_ident_char w = true ->
    s_ctx s = InScript -> s_chars s = w ++ rest -> begins_word rest = false ->
    (forall t r, s_toks s = t :: r -> t_type t = TYield -> c :: w <> lit "from") ->
    exists s' t, scan_word c s = SOk s' /\ s_chars s' = rest /\ s_ctx s' = InScript /\ s_toks s' = t :: s_toks s
      /\ key_of t = match map_keyword (c :: w) with Some k => (k, None) | None => (TIdentifier, Some (c :: w)) end.
  Proof.
    intros c w s rest hc hw hx hs hr hf. unfold scan_word. rewrite hc. unfold collect_identifier.
    destruct (collect_forward is_ident_char (fuel_of s) w [] s rest ident_plain hw (rest_word _ hr) hs (fuel_enough _ _ _ hs))
      as (s1 & e1 & e2 & e3 & e4 & e5). rewrite e1. cbn [sbind rev app].
    assert (hid : exists s' t, SOk (push_named_token s1 TIdentifier (c :: w)) = SOk s' /\ s_chars s' = rest
      /\ s_ctx s' = InScript /\ s_toks s' = t :: s_toks s /\ key_of t = (TIdentifier, Some (c :: w))).
    { do 2 eexists. split; [reflexivity|]. unfold push_named_token. cbn. rewrite e2, e3, e4. splits; auto. }
    destruct (map_keyword (c :: w)) as [k|] eqn:em.
    - unfold push_token. rewrite e3, hx. cbn [is_in_script]. do 2 eexists. split; [reflexivity|]. cbn. rewrite e2, e3, e4. splits; auto.
    - destruct (str_eqb (c :: w) (lit "from")) eqn:ef; [|exact hid]. apply str_eqb_eq in ef.
      destruct (s_toks s1) as [|t r] eqn:et; [exact hid|].
      destruct (tt_eqb (t_type t) TYield) eqn:ey; [|exact hid]. apply tt_eqb_eq in ey.
      exfalso. apply (hf t r); congruence.
  Qed.

  Lemma variable_step : forall w s rest, forallb is_ident_char w = true ->
    s_ctx s = InScript -> s_chars s = w ++ rest -> begins_word rest = false ->
    exists s' t, scan_char 36 s = SOk s' /\ s_chars s' = rest /\ s_ctx s' = InScript /\ s_toks s' = t :: s_toks s
      /\ key_of t = (TVariable, match w with [] => None | _ => Some w end).
  Proof.
    intros w s rest hw hx hs hr. change (scan_char 36 s) with
      (slet (name, s1) <- collect_identifier s ;;
       match name with [] => SOk (push_token s1 TVariable) | _ => SOk (push_named_token s1 TVariable name) end).
    unfold collect_identifier.
    destruct (collect_forward is_ident_char (fuel_of s) w [] s rest ident_plain hw (rest_word _ hr) hs (fuel_enough _ _ _ hs))
      as (s1 & e1 & e2 & e3 & e4 & e5). rewrite e1. cbn [sbind rev app].
    destruct w as [|c w].
    - unfold push_token. rewrite e3, hx. cbn [is_in_script]. do 2 eexists. split; [reflexivity|]. cbn. rewrite e2, e3, e4. splits; auto.
    - do 2 eexists. split; [reflexivity|]. unfold push_named_token. cbn. rewrite e2, e3, e4. splits; auto.
  Qed.

  (** *** Numbers *)
  Lemma number_char : forall c s, is_digit c = true -> scan_char c s = scan_number c s.
  Proof.
    intros c s h. unfold scan_char. rewrite h.
    repeat match goal with
    | |- (if (c =? ?k) then _ else _) = _ =>
        destruct (N.eqb_spec c k) as [->|_]; [discriminate h|]
    | |- (if (_ || (c =? ?k)) then _ else _) = _ =>
        destruct (N.eqb_spec c k) as [->|_]; [discriminate h|rewrite orb_false_r]
    end. reflexivity.
  Qed.

  Lemma peek_word : forall s rest k, s_chars s = rest -> begins_word rest = false -> is_ident_char k = true ->
    peek_is s k = false.
  Proof.
    intros s rest k h1 h2 h3. unfold peek_is, peek. rewrite h1. destruct rest as [|c r]; [reflexivity|].
    cbn [hd_error]. destruct (N.eqb_spec c k) as [->|_]; [|reflexivity]. unfold begins_word in h2. congruence.
  Qed.
  Lemma peek_dot : forall s rest, s_chars s = rest -> begins_dot rest = false -> peek_is s 46 = false.
  Proof.
    intros s rest h1 h2. unfold peek_is, peek. rewrite h1. destruct rest as [|c r]; [reflexivity|]. exact h2.
  Qed.
  Lemma peek_cons : forall s c r k, s_chars s = c :: r -> peek_is s k = (c =? k).
  Proof. intros s c r k h. unfold peek_is, peek. now rewrite h. Qed.

  Lemma digit_word : forall c, is_digit c = true -> is_ident_char c = true.
  Proof.
    intros c h. unfold is_ident_char, is_alnum, is_ascii, ascii_alnum. rewrite h.
    unfold is_digit in h. apply andb_true_iff in h as [h1 h2]. apply N.leb_le in h2.
    replace (c <? 128) with true by (symmetry; apply N.ltb_lt; lia). rewrite ?orb_true_r. reflexivity.
  Qed.
  Lemma rest_digit : forall rest, begins_word rest = false ->
    match rest with c :: _ => is_digit c = false | [] => True end.
  Proof.
    intros [|c r] h; [exact I|]. cbn in h. destruct (is_digit c) eqn:e; [|reflexivity].
    apply digit_word in e. congruence.
  Qed.
  Lemma rest_hex : forall rest, begins_word rest = false ->
    match rest with c :: _ => is_hex c = false | [] => True end.
  Proof.
    intros [|c r] h; [exact I|]. cbn in h. destruct (is_hex c) eqn:e; [|reflexivity]. exfalso.
    apply hex_listed in e. assert (q : is_ident_char c = true); [|congruence].
    cbn [In lit] in e. repeat (destruct e as [<-|e]; [reflexivity|]). destruct e.
  Qed.
  Lemma rest_binary : forall rest, begins_word rest = false ->
    match rest with c :: _ => is_binary c = false | [] => True end.
  Proof.
    intros [|c r] h; [exact I|]. cbn in h. destruct (is_binary c) eqn:e; [|reflexivity]. exfalso.
    assert (q : is_ident_char c = true); [|congruence].
    unfold is_binary in e. apply orb_true_iff in e as [e|e]; apply N.eqb_eq in e; subst c; reflexivity.
  Qed.

  Lemma prefixed_step : forall x k p ds s rest,
    (x = 120 /\ k = THexNumber /\ p = is_hex) \/ (x = 98 /\ k = TBinaryNumber /\ p = is_binary) ->
    forallb p ds = true -> s_ctx s = InScript -> s_chars s = x :: ds ++ rest -> begins_word rest = false ->
    exists s' t, scan_number 48 s = SOk s' /\ s_chars s' = rest /\ s_ctx s' = InScript /\ s_toks s' = t :: s_toks s
      /\ key_of t = (k, Some ([48; x] ++ ds)).
  Proof.
    intros x k p ds s rest hx hd hc hs hr.
    assert (h13 : x <> 13 /\ x <> 10) by (destruct hx as [(-> & _)|(-> & _)]; lia). destruct h13 as [h13 h10].
    destruct (skip_cons s x (ds ++ rest) hs h13) as (lbs & b1 & b2 & b3 & b4 & _ & b5).
    rewrite (b5 h10) in b4. cbn [app] in b4.
    assert (hp : forall c, p c = true -> c <> 10 /\ c <> 13)
      by (destruct hx as [(_ & _ & ->)|(_ & _ & ->)]; [apply hex_plain|apply binary_plain]).
    assert (hq : match rest with c :: _ => p c = false | [] => True end)
      by (destruct hx as [(_ & _ & ->)|(_ & _ & ->)]; [now apply rest_hex|now apply rest_binary]).
    destruct (collect_forward p (fuel_of (skip s)) ds [] (skip s) rest hp hd hq b1 (fuel_enough _ _ _ b1))
      as (s1 & e1 & e2 & e3 & e4 & e5). cbn [rev app] in e1.
    exists (push_named_token s1 k ([48; x] ++ ds)). eexists.
    split; [|unfold push_named_token; cbn; rewrite e2, e3, e4, b2, b4; splits; auto].
    unfold scan_number. rewrite !(peek_cons _ _ _ _ hs).
    destruct hx as [(-> & -> & ->)|(-> & -> & ->)]; cbn [N.eqb Pos.eqb andb];
      unfold collect_hex_number, collect_binary_number; rewrite e1; reflexivity.
  Qed.

  Definition exponent (e : option (str * str)) : str :=
    match e with Some (sg, ds) => [101] ++ sg ++ ds | None => [] end.

  Lemma number_step : forall c ds b e s rest,
    is_digit c = true -> forallb is_digit ds = true ->
    (b = [] \/ exists b', b = 46 :: b' /\ forallb is_digit b' = true) ->
    (forall sg es, e = Some (sg, es) -> forallb is_digit es = true /\ (sg = [] /\ es <> [] \/ sg = [45] \/ sg = [43])) ->
    s_ctx s = InScript -> s_chars s = ds ++ b ++ exponent e ++ rest -> begins_word rest = false ->
    (e = None -> b = [] -> begins_dot rest = false) ->
    exists s' t, scan_number c s = SOk s' /\ s_chars s' = rest /\ s_ctx s' = InScript /\ s_toks s' = t :: s_toks s
      /\ key_of t = (match e with
                     | Some _ => TExponentialNumber
                     | None => match b with [] => TLongNumber | _ => TDecimalNumber end
                     end, Some ((c :: ds) ++ b ++ exponent e)).
  Proof.
    intros c ds b e s rest hc hd hb he hx hs hr hdot.
    assert (hno : forall k, is_ident_char k = true -> is_digit k = false -> k <> 101 -> peek_is s k = false).
    { intros k k1 k2 k3. destruct ds as [|d ds].
      - cbn [app] in hs. destruct hb as [->|(b' & -> & _)].
        + cbn [app] in hs. destruct e as [[sg es]|].
          * cbn [exponent app] in hs. rewrite (peek_cons _ _ _ _ hs). apply N.eqb_neq. congruence.
          * cbn [exponent app] in hs. eapply peek_word; eauto.
        + cbn [app] in hs. rewrite (peek_cons _ _ _ _ hs). apply N.eqb_neq. intros <-. discriminate k1.
      - cbn [app] in hs. rewrite (peek_cons _ _ _ _ hs). apply N.eqb_neq. intros <-.
        cbn [forallb] in hd. apply andb_true_iff in hd as [hd _]. congruence. }
    unfold scan_number. rewrite (hno 120 eq_refl eq_refl ltac:(lia)), (hno 98 eq_refl eq_refl ltac:(lia)). cbn [andb].
    assert (htail : forall tail, tail = b ++ exponent e ++ rest -> match tail with c :: _ => is_digit c = false | [] => True end).
    { intros tail ->. destruct hb as [->|(b' & -> & _)]; [|reflexivity]. destruct e as [[sg es]|]; [reflexivity|].
      now apply rest_digit. }
    unfold collect_number at 1.
    destruct (collect_forward is_digit (fuel_of s) ds [] s _ digit_plain hd (htail _ eq_refl) hs (fuel_enough _ _ _ hs))
      as (s1 & e1 & e2 & e3 & e4 & e5). rewrite e1. cbn [sbind rev app].
    assert (hfrac : exists s2 ty, (if peek_is s1 46 then
           slet (dec, s2) <- collect_number (skip s1) ;; SOk ((c :: ds) ++ [46] ++ dec, TDecimalNumber, s2)
         else SOk (c :: ds, TLongNumber, s1)) = SOk ((c :: ds) ++ b, ty, s2)
       /\ s_chars s2 = exponent e ++ rest /\ s_ctx s2 = InScript /\ s_toks s2 = s_toks s
       /\ (e = None -> ty = match b with [] => TLongNumber | _ => TDecimalNumber end)).
    { destruct hb as [->|(b' & -> & hb')].
      - cbn [app] in e2. rewrite app_nil_r.
        assert (q : peek_is s1 46 = false).
        { destruct e as [[sg es]|]; [rewrite (peek_cons _ _ _ _ e2); reflexivity|]. cbn [exponent app] in e2.
          eapply peek_dot; eauto. }
        rewrite q. exists s1, TLongNumber. splits; auto; congruence.
      - cbn [app] in e2. rewrite (peek_cons _ _ _ _ e2). cbn [N.eqb Pos.eqb].
        destruct (skip_cons s1 46 _ e2 ltac:(lia)) as (lbs & b1 & b2 & b3 & b4 & _ & b5).
        rewrite (b5 ltac:(lia)) in b4. cbn [app] in b4.
        assert (htail2 : match exponent e ++ rest with c :: _ => is_digit c = false | [] => True end)
          by (destruct e as [[sg es]|]; [reflexivity|now apply rest_digit]).
        unfold collect_number.
        destruct (collect_forward is_digit (fuel_of (skip s1)) b' [] (skip s1) _ digit_plain hb' htail2 b1 (fuel_enough _ _ _ b1))
          as (s2 & f1 & f2 & f3 & f4 & f5). rewrite f1. cbn [sbind rev app].
        exists s2, TDecimalNumber. splits; auto; congruence. }
    destruct hfrac as (s2 & ty & f1 & f2 & f3 & f4 & f5).
    match goal with |- context [sbind ?x _] => replace x with (@SOk (str * TokenType * Scn) ((c :: ds) ++ b, ty, s2)) by (symmetry; exact f1) end.
    cbn [sbind]. clear f1. destruct e as [[sg es]|].
    - cbn [exponent app] in f2. rewrite !(peek_cons _ _ _ _ f2). cbn [N.eqb Pos.eqb orb].
      destruct (he sg es eq_refl) as [g1 g2]. cbv zeta.
      destruct (skip_cons s2 101 _ f2 ltac:(lia)) as (lbs & b1 & b2 & b3 & b4 & _ & b5).
      rewrite (b5 ltac:(lia)) in b4. cbn [app] in b4.
      assert (hsg : exists s4, (if peek_is (skip s2) 45 then ((((c :: ds) ++ b) ++ [101]) ++ [45], skip (skip s2))
                      else if peek_is (skip s2) 43 then ((((c :: ds) ++ b) ++ [101]) ++ [43], skip (skip s2))
                      else (((c :: ds) ++ b) ++ [101], skip s2)) = ((((c :: ds) ++ b) ++ [101]) ++ sg, s4)
              /\ s_chars s4 = es ++ rest /\ s_ctx s4 = InScript /\ s_toks s4 = s_toks s).
      { destruct g2 as [(-> & g2)|[-> | ->]]; cbn [app] in b1.
        - destruct es as [|d es]; [congruence|]. cbn [app] in b1. rewrite !(peek_cons _ _ _ _ b1).
          cbn [forallb] in g1. apply andb_true_iff in g1 as [g1 _].
          assert (q1 : (d =? 45) = false) by (apply N.eqb_neq; intros ->; discriminate g1).
          assert (q2 : (d =? 43) = false) by (apply N.eqb_neq; intros ->; discriminate g1).
          rewrite q1, q2. exists (skip s2). rewrite app_nil_r. splits; auto; congruence.
        - rewrite (peek_cons _ _ _ _ b1). cbn [N.eqb Pos.eqb].
          destruct (skip_cons (skip s2) 45 _ b1 ltac:(lia)) as (lbs' & c1 & c2 & c3 & c4 & _ & c5).
          rewrite (c5 ltac:(lia)) in c4. exists (skip (skip s2)). splits; auto; cbn [app] in c4; congruence.
        - rewrite !(peek_cons _ _ _ _ b1). cbn [N.eqb Pos.eqb].
          destruct (skip_cons (skip s2) 43 _ b1 ltac:(lia)) as (lbs' & c1 & c2 & c3 & c4 & _ & c5).
          rewrite (c5 ltac:(lia)) in c4. exists (skip (skip s2)). splits; auto; cbn [app] in c4; congruence. }
      destruct hsg as (s4 & k1 & k2 & k3 & k4). rewrite k1. unfold collect_number.
      destruct (collect_forward is_digit (fuel_of s4) es [] s4 _ digit_plain g1 (rest_digit _ hr) k2 (fuel_enough _ _ _ k2))
        as (s5 & m1 & m2 & m3 & m4 & m5). rewrite m1. cbn [sbind rev app].
      do 2 eexists. split; [reflexivity|]. unfold push_named_token. cbn [s_chars s_ctx s_toks set_toks].
      splits; auto; try congruence; [rewrite m4, k4; reflexivity|].
      unfold key_of, token_named. cbn [t_type t_label]. f_equal. f_equal. cbn [exponent app]. rewrite <- !app_assoc. reflexivity.
    - cbn [exponent app] in f2. rewrite (peek_word _ _ 101 f2 hr eq_refl), (peek_word _ _ 69 f2 hr eq_refl). cbn [orb].
      do 2 eexists. split; [reflexivity|]. unfold push_named_token. cbn [s_chars s_ctx s_toks set_toks]. splits; auto; [rewrite f4; reflexivity|].
      unfold key_of, token_named. cbn [t_type t_label exponent]. rewrite (f5 eq_refl), app_nil_r. reflexivity.
  Qed.

  (** *** All tokens *)
  Lemma written_step : forall k w rest, written_as k w rest -> forall n s,
    s_ctx s = InScript -> s_chars s = w ++ rest ->
    (forall t r, s_toks s = t :: r -> sticks (t_type t) [k] = false) ->
    exists s', scan_loop (S n) s = scan_loop n s' /\ stepped s s' rest k.
  Proof.
    intros k w rest h n s hx hs hst.
    assert (one : forall c cs (k : key), w = c :: cs -> c <> 13 -> c <> 10 ->
      (forall s1, s_ctx s1 = InScript -> s_chars s1 = cs ++ rest -> s_toks s1 = s_toks s ->
        exists s' t, scan_char c s1 = SOk s' /\ s_chars s' = rest /\ s_ctx s' = InScript /\ s_toks s' = t :: s_toks s1
          /\ key_of t = k) ->
      exists s', scan_loop (S n) s = scan_loop n s' /\ stepped s s' rest k).
    { intros c cs k0 -> h1 h2 h3. cbn [app] in hs.
      destruct (scan_loop_char n s c (cs ++ rest) hx hs h1 h2) as (s1 & e1 & e2 & e3 & _ & e4).
      destruct (h3 s1 e3 e2 e4) as (s' & t & f1 & f2 & f3 & f4 & f5). exists s'. rewrite e1, f1. split; [reflexivity|].
      split; [exact f2|]. split; [exact f3|]. exists t, []. cbn [app]. split; [congruence|]. split; [constructor|exact f5]. }
    inversion h; subst.
    - (* symbol *)
      destruct (lit w0) as [|c cs] eqn:ew.
      { exfalso. assert (q : forallb (fun x => negb (str_eqb (lit (snd (fst x))) [])) symbols = true) by reflexivity.
        rewrite forallb_forall in q. specialize (q _ H). cbn [fst snd] in q. rewrite ew in q. discriminate q. }
      assert (q : forallb (fun x => match lit (snd (fst x)) with c :: _ => negb (c =? 13) && negb (c =? 10) | [] => true end) symbols = true)
        by reflexivity.
      rewrite forallb_forall in q. specialize (q _ H). cbn [fst snd] in q. rewrite ew in q.
      apply andb_true_iff in q as [q1 q2]. apply negb_true_iff in q1, q2. apply N.eqb_neq in q1, q2.
      apply (one c cs); auto. intros s1 g1 g2 g3.
      destruct (symbol_step k0 w0 tight rest s1 c cs H H0 ew g1 g2) as (s' & r1 & r2 & r3 & t & r4 & r5).
      exists s', t. splits; auto.
    - (* closing parenthesis *)
      apply (one 41 []); auto; try lia. intros s1 g1 g2 g3. cbn [app] in g2.
      change (scan_char 41 s1) with (close_parenthesis s1).
      assert (q : close_parenthesis s1 = SOk (push_token s1 TCloseParenthesis)).
      { unfold close_parenthesis. rewrite g3. destruct (s_toks s) as [|t [|t2 r]] eqn:et; [reflexivity| |].
        - destruct (map_cast (t_type t)); reflexivity.
        - specialize (hst t (t2 :: r) eq_refl). cbn [sticks] in hst. apply orb_false_iff in hst as [hst _].
          change (tt_eqb TCloseParenthesis TCloseParenthesis) with true in hst. rewrite andb_true_r in hst.
          destruct (map_cast (t_type t)); [discriminate hst|reflexivity]. }
      rewrite q. unfold push_token. rewrite g1. cbn [is_in_script]. do 2 eexists. split; [reflexivity|]. cbn. splits; auto.
    - (* keyword *)
      cbn [forallb] in H0. apply andb_true_iff in H0 as [i1 i2]. destruct (ident_plain _ i1) as [p1 p2].
      apply (one c w0); auto. intros s1 g1 g2 g3. rewrite word_char by auto.
      destruct (scan_word_step c w0 s1 rest i1 i2 g1 g2 H2) as (s' & t & r1 & r2 & r3 & r4 & r5).
      { intros t r e1 e2 e3. rewrite e3 in H1. discriminate H1. }
      rewrite H1 in r5. eauto 10.
    - (* identifier *)
      cbn [forallb] in H0. apply andb_true_iff in H0 as [i1 i2]. destruct (ident_plain _ i1) as [p1 p2].
      apply (one c w0); auto. intros s1 g1 g2 g3. rewrite word_char by auto.
      destruct (scan_word_step c w0 s1 rest i1 i2 g1 g2 H2) as (s' & t & r1 & r2 & r3 & r4 & r5).
      { intros t r e1 e2 e3. rewrite g3 in e1. specialize (hst t r e1). cbn [sticks] in hst.
        apply orb_false_iff in hst as [_ hst]. rewrite e2, e3 in hst. discriminate hst. }
      rewrite H1 in r5. eauto 10.
    - (* variable *)
      apply (one 36 w0); auto; try lia. intros s1 g1 g2 g3.
      destruct (variable_step w0 s1 rest H0 g1 g2 H1) as (s' & t & r1 & r2 & r3 & r4 & r5).
      destruct w0; [congruence|]. eauto 10.
    - apply (one 36 []); auto; try lia. intros s1 g1 g2 g3.
      destruct (variable_step [] s1 rest eq_refl g1 g2 H) as (s' & t & r1 & r2 & r3 & r4 & r5). eauto 10.
    - (* hex *)
      apply (one 48 (120 :: ds)); auto; try lia. intros s1 g1 g2 g3. rewrite number_char by reflexivity.
      destruct (prefixed_step 120 THexNumber is_hex ds s1 rest) as (s' & t & r1 & r2 & r3 & r4 & r5); auto. eauto 10.
    - apply (one 48 (98 :: ds)); auto; try lia. intros s1 g1 g2 g3. rewrite number_char by reflexivity.
      destruct (prefixed_step 98 TBinaryNumber is_binary ds s1 rest) as (s' & t & r1 & r2 & r3 & r4 & r5); auto. eauto 10.
    - (* long *)
      destruct w as [|c ds]; [congruence|]. cbn [forallb] in H0. apply andb_true_iff in H0 as [i1 i2].
      destruct (digit_plain _ i1) as [p1 p2].
      apply (one c ds); auto. intros s1 g1 g2 g3. rewrite number_char by exact i1.
      destruct (number_step c ds [] None s1 rest) as (s' & t & r1 & r2 & r3 & r4 & r5); auto; [discriminate|].
      cbn [app exponent] in r5. rewrite app_nil_r in r5. eauto 10.
    - (* decimal *)
      destruct a as [|c ds]; [congruence|]. cbn [forallb] in H0. apply andb_true_iff in H0 as [i1 i2].
      destruct (digit_plain _ i1) as [p1 p2].
      apply (one c (ds ++ [46] ++ b)); auto. intros s1 g1 g2 g3. rewrite number_char by exact i1.
      destruct (number_step c ds (46 :: b) None s1 rest) as (s' & t & r1 & r2 & r3 & r4 & r5); auto; eauto; try discriminate.
      { rewrite g2, <- !app_assoc. reflexivity. }
      cbn [exponent] in r5. rewrite app_nil_r in r5. eauto 10.
    - (* exponential *)
      destruct a as [|c ds0]; [congruence|]. cbn [forallb] in H0. apply andb_true_iff in H0 as [i1 i2].
      destruct (digit_plain _ i1) as [p1 p2].
      apply (one c (ds0 ++ b ++ [101] ++ sg ++ ds)); auto. intros s1 g1 g2 g3. rewrite number_char by exact i1.
      destruct (number_step c ds0 b (Some (sg, ds)) s1 rest) as (s' & t & r1 & r2 & r3 & r4 & r5); auto; try discriminate.
      { intros sg' es' e. injection e as <- <-. auto. }
      { rewrite g2. cbn [exponent]. rewrite <- !app_assoc. reflexivity. }
      eauto 10.
    - (* quoted *)
      rewrite <- app_comm_cons, <- app_assoc in hs. cbn [app] in hs.
      destruct (scan_quoted n s q k0 body rest H hx H0 H1 hs) as (s' & lbs & t & e1 & e2 & e3 & e4 & e5 & e6 & e7 & _).
      exists s'. split; [exact e1|]. split; [exact e2|]. split; [exact e3|]. exists t, lbs. splits; auto.
      unfold key_of. congruence.
  Qed.

  (** ** A whole text *)

  (** the tokens without line breaks *)
  Definition code (ts : list Token) : list key :=
    map key_of (filter (fun t => negb (tt_eqb (t_type t) TLinebreak)) ts).

  Lemma code_app : forall a b, code (a ++ b) = code a ++ code b.
  Proof. intros a b. unfold code. now rewrite filter_app, map_app. Qed.
  Lemma code_lbs : forall l, Forall is_lb l -> code (rev l) = [].
  Proof.
    intros l h. apply Forall_rev in h. induction h as [|t l' h h2 IH]; [reflexivity|].
    unfold code in *. cbn [filter]. unfold is_lb in h. rewrite h. exact IH.
  Qed.

  Lemma written_nonempty : forall k w rest, written_as k w rest -> w <> [] /\ fst k <> TLinebreak.
  Proof.
    intros k w rest h. inversion h; subst; split; cbn [fst]; try discriminate.
    - assert (q : forallb (fun x => negb (str_eqb (lit (snd (fst x))) [])) symbols = true) by reflexivity.
      rewrite forallb_forall in q. specialize (q _ H). cbn [fst snd] in q. intros e. rewrite e in q. discriminate q.
    - assert (q : forallb (fun x => negb (tt_eqb (fst (fst x)) TLinebreak)) symbols = true) by reflexivity.
      rewrite forallb_forall in q. specialize (q _ H). cbn [fst snd] in q. intros e. rewrite e in q. discriminate q.
    - intros ->. destruct (map_keyword_some _ _ H1) as [q _]. discriminate q.
    - auto.
    - destruct a; discriminate.
    - destruct a; [congruence|discriminate].
    - destruct H as [[_ ->]|[[_ ->]|[_ ->]]]; discriminate.
  Qed.

  Lemma spells_loop : forall w ks, spells w ks -> forall n s,
    s_ctx s = InScript -> s_chars s = w -> (List.length w < n)%nat ->
    (forall t r, s_toks s = t :: r -> sticks (t_type t) ks = false) ->
    exists s', scan_loop n s = SOk s' /\ code (rev (s_toks s')) = code (rev (s_toks s)) ++ ks ++ [(TEof, None)].
  Proof.
    intros w ks h. induction h as [|c w ks hc h IH|k w rest ks hw hst h IH]; intros n s hx hs hn hk;
      (destruct n as [|n]; [cbn in hn; lia|]).
    - cbn [scan_loop]. cbv zeta. unfold advance, set_start. cbn [s_chars]. rewrite hs. cbn [advance_on].
      eexists. split; [reflexivity|]. unfold push_token. cbn [s_ctx]. rewrite hx. cbn [is_in_script s_toks set_toks rev].
      rewrite code_app. reflexivity.
    - assert (h13 : c <> 13) by (destruct hc; lia).
      cbn [scan_loop]. cbv zeta. destruct (advance_cons (set_start s) c w hs h13) as (s1 & lbs & e & a1 & a2 & a3 & a4 & a5 & a6).
      rewrite e. cbn [s_ctx set_start] in a2. rewrite a2, hx. cbn [is_in_script negb andb].
      assert (q : scan_char c s1 = SOk s1) by (destruct hc; subst c; reflexivity). rewrite q. cbn [sbind].
      destruct (IH n s1) as (s' & f1 & f2); auto; [congruence|cbn in hn; lia| |].
      + intros t r et. rewrite a4 in et. cbn [set_start s_toks] in et. destruct lbs as [|t0 lbs]; [apply (hk t r et)|].
        cbn [app] in et. injection et as -> _. inversion a5 as [|? ? a7 _]; subst. unfold is_lb in a7. rewrite a7.
        unfold sticks. destruct ks as [|[k2 l2] ks]; reflexivity.
      + exists s'. split; [exact f1|]. rewrite f2, a4, rev_app_distr, code_app, (code_lbs _ a5), app_nil_r. reflexivity.
    - destruct (written_nonempty _ _ _ hw) as [n1 n2].
      destruct (written_step k w rest hw n s hx hs) as (s1 & e1 & a1 & a2 & t & lbs & a3 & a4 & a5).
      { intros t r et. specialize (hk t r et). unfold sticks in hk |- *. exact hk. }
      destruct (IH n s1 a2 a1) as (s' & f1 & f2).
      + rewrite app_length in hn. destruct w; [congruence|]. cbn in hn. lia.
      + intros t0 r et. rewrite a3 in et. injection et as <- _. rewrite <- a5 in hst. exact hst.
      + exists s'. rewrite e1. split; [exact f1|]. rewrite f2, a3. cbn [rev]. rewrite rev_app_distr, !code_app, (code_lbs _ a4), app_nil_r.
        rewrite <- app_assoc. f_equal. unfold code at 1. cbn [filter].
        assert (q : tt_eqb (t_type t) TLinebreak = false).
        { destruct (tt_eqb (t_type t) TLinebreak) eqn:q; [|reflexivity]. apply tt_eqb_eq in q. subst k. cbn in n2. contradiction. }
        rewrite q. cbn [negb map app]. rewrite a5. reflexivity.
  Qed.

  (** A script that begins with an opening tag on a line of its own. *)
  Theorem spells_scan : forall w ks, spells w ks ->
    exists ts, scan (lit "<?php" ++ [10] ++ w) = SOk ts
      /\ code ts = (TScriptStart Regular, None) :: ks ++ [(TEof, None)].
  Proof.
    intros w ks h. pose proof (S_white 10 w ks (or_intror eq_refl) h) as h'.
    set (s0 := mkScn 5 (0, 0) 0 InScript [token_new (TScriptStart Regular) 0 0 0] (10 :: w)).
    destruct (spells_loop _ _ h' (6 + List.length w)%nat s0 eq_refl eq_refl) as (s' & e1 & e2); [cbn [List.length]; lia| |].
    { intros t r et. injection et as <- <-. unfold sticks. destruct ks as [|[k2 l2] ks]; reflexivity. }
    exists (rev (s_toks s')). split; [|exact e2].
    unfold scan. assert (q : scan_state (lit "<?php" ++ [10] ++ w) = SOk s'); [|rewrite q; reflexivity].
    rewrite <- e1. unfold scan_state, fuel_of, scanner_new. cbn [s_chars].
    replace (S (List.length (lit "<?php" ++ [10] ++ w))) with (S (6 + List.length w)) by reflexivity.
    reflexivity.
  Qed.
End Respell.
