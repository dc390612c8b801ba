(** Property C60: doc comments are read as they are written. *)

From Coq Require Import Lia.
From Verif Require Import Base Token Scanner Node DocBlock DocFacts AssocFacts Parser SpecNames.

Local Open Scope string_scope.
Local Open Scope N_scope.
Local Open Scope list_scope.

Section DocComments.
Context {RT : Runtime}.

(** * Specification *)

(** Lines and columns: the place behind a piece of text that starts at [p] *)
Definition moved (p : N * N) (c : char) : N * N := if c =? 10 then (fst p + 1, 0) else (fst p, snd p + 1).
Definition after (p : N * N) (text : str) : N * N := fold_left moved text p.

(** Words: letters, digits and underscores; with [this], also [$]. *)
Definition letter (this : bool) (c : char) : bool := is_alnum c || (c =? 95) || ((c =? 36) && this).
(** (No character is both a letter and white space; the runtime is not asked to know that.) *)
Definition is_word (this : bool) (w : str) : Prop := Forall (fun c => letter this c = true /\ is_whitespace c = false) w.
Definition blanks (b : str) : Prop := Forall (fun c => is_whitespace c = true /\ is_alnum c = false) b.
Definition on_line (text : str) : Prop := ~ In 10 text.
(** The text does not start with a character of this kind. *)
Definition ends (kind_of : char -> bool) (text : str) : Prop :=
  match text with [] => True | c :: _ => kind_of c = false end.

(** What the words of types stand for *)
Definition type_words : list (str * TokenType) :=
  [(lit "null", TNull); (lit "mixed", TMixed); (lit "bool", TTypeBool); (lit "boolean", TTypeBool);
   (lit "int", TTypeInt); (lit "integer", TTypeInt); (lit "string", TTypeString); (lit "binary", TTypeString);
   (lit "static", TStatic); (lit "self", TTypeSelf); (lit "array", TTypeArray); (lit "object", TTypeObject);
   (lit "float", TTypeFloat); (lit "double", TTypeFloat); (lit "void", TVoid); (lit "callable", TCallable);
   (lit "generator", TGenerator); (lit "resource", TResource)].
Definition word_type (w : str) (ty : TokenType) : Prop :=
  In (to_lowercase w, ty) type_words \/ (~ In (to_lowercase w) (map fst type_words) /\ ty = TIdentifier).

(** A token with the text [w] at the place [p]; tokens of doc comments have the
    offset 0. *)
Definition at_place (p : N * N) (ty : TokenType) (w : option str) : Token := mkToken (snd p) (fst p) ty w (Some 0).

(** [Name this p text ts]: [text] is a name such as [Foo], [A\Foo] or [\A\Foo] at the
    place [p], and [ts] are its tokens.  (A separator has the place of the
    word before it.) *)
Inductive Name (this : bool) : N * N -> str -> list Token -> Prop :=
| Name_one : forall p w ty, w <> [] -> is_word this w -> word_type w ty -> Name this p w [at_place p ty (Some w)]
| Name_root : forall p text ts, Name this (after p (lit "\")) text ts ->
    Name this p (lit "\" ++ text) (at_place p TNamespaceSeparator None :: ts)
| Name_more : forall p w ty text ts, w <> [] -> is_word this w -> word_type w ty ->
    Name this (after p (w ++ lit "\")) text ts ->
    Name this p (w ++ lit "\" ++ text) (at_place p ty (Some w) :: at_place p TNamespaceSeparator None :: ts).
(** Types: names, perhaps with [[]], separated by bars *)
Inductive Types (this : bool) : N * N -> str -> list TypeRef -> Prop :=
| Types_one : forall p name ts many, Name this p name ts ->
    Types this p (name ++ if many : bool then lit "[]" else []) [mkTypeRef ts many]
| Types_more : forall p name ts (many : bool) text trs, Name this p name ts ->
    Types this (after p (name ++ (if many then lit "[]" else []) ++ lit "|")) text trs ->
    Types this p (name ++ (if many then lit "[]" else []) ++ lit "|" ++ text) (mkTypeRef ts many :: trs).

(** The end of a tag: the rest of its line, up to the next line or, when [last], up to
    the end of the comment *)
Definition closes (text descr : str) (last : bool) : Prop :=
  on_line descr /\ text = descr ++ (if last then [] else lit "
").

(** [Named p text trs name descr last]: [text], at the place [p], is [Foo|int $name descr]. *)
Inductive Named (p : N * N) : str -> list TypeRef -> Token -> str -> bool -> Prop :=
| Named_full : forall types trs b w text descr last, Types false p types trs ->
    b <> [] -> blanks b -> on_line b -> w <> [] -> is_word false w -> closes text descr last -> ends (letter false) text ->
    Named p (types ++ b ++ lit "$" ++ w ++ text) trs (at_place (after p (types ++ b)) TVariable (Some w)) descr last
| Named_untyped : forall w text descr last,
    w <> [] -> is_word false w -> closes text descr last -> ends (letter false) text ->
    Named p (lit "$" ++ w ++ text) [] (at_place p TVariable (Some w)) descr last
| Named_nameless : forall types trs b text descr last, Types false p types trs ->
    b <> [] -> blanks b -> on_line b -> closes text descr last ->
    ends is_whitespace text -> ends (fun c => c =? 36) text ->
    Named p (types ++ b ++ text) trs (at_place (after p (types ++ b)) TVariable (Some [])) descr last.

(** [Doc p text tags deprecated words]: the rest [text] of a doc comment, at the place
    [p], has these tags, in this order; it says or does not say that something
    is deprecated; [words] is the text outside of tags without asterisks. *)
Inductive Doc : N * N -> str -> list Node -> bool -> str -> Prop :=
| Doc_end : forall p, Doc p [] [] false []
| Doc_text : forall p c text tags dep words, c <> 64 -> Doc (moved p c) text tags dep words ->
    Doc p (c :: text) tags dep (if c =? 42 then words else c :: words)
| Doc_param : forall p b text trs name descr last rest tags dep words, b <> [] -> blanks b -> on_line b ->
    Named (after p (lit "@param" ++ b)) text trs name descr last -> (last = true -> rest = []) ->
    Doc (after p (lit "@param" ++ b ++ text)) rest tags dep words ->
    Doc p (lit "@param" ++ b ++ text ++ rest) (NDocCommentParam name (Some trs) descr :: tags) dep words
| Doc_var : forall p b text trs name descr last rest tags dep words, b <> [] -> blanks b -> on_line b ->
    Named (after p (lit "@var" ++ b)) text trs name descr last -> (last = true -> rest = []) ->
    Doc (after p (lit "@var" ++ b ++ text)) rest tags dep words ->
    Doc p (lit "@var" ++ b ++ text ++ rest) (NDocCommentVar name (Some trs) descr :: tags) dep words
| Doc_property : forall p b text trs name descr last rest tags dep words, b <> [] -> blanks b -> on_line b ->
    Named (after p (lit "@property" ++ b)) text trs name descr last -> (last = true -> rest = []) ->
    Doc (after p (lit "@property" ++ b ++ text)) rest tags dep words ->
    Doc p (lit "@property" ++ b ++ text ++ rest)
      (NDocCommentProperty name (if trs then None else Some trs) descr :: tags) dep words
| Doc_return : forall p b types trs b2 text descr last rest tags dep words, b <> [] -> blanks b -> on_line b ->
    Types true (after p (lit "@return" ++ b)) types trs -> b2 <> [] -> blanks b2 -> on_line b2 ->
    closes text descr last -> ends is_whitespace text -> (last = true -> rest = []) ->
    Doc (after p (lit "@return" ++ b ++ types ++ b2 ++ text)) rest tags dep words ->
    Doc p (lit "@return" ++ b ++ types ++ b2 ++ text ++ rest) (NDocCommentReturn (Some trs) descr :: tags) dep words
| Doc_deprecated : forall p b rest tags dep words, blanks b -> ends is_whitespace rest ->
    (b = [] -> ends (letter false) rest) -> Doc (after p (lit "@deprecated" ++ b)) rest tags dep words ->
    Doc p (lit "@deprecated" ++ b ++ rest) tags true words
| Doc_other : forall p w b rest tags dep words, is_word false w -> blanks b -> ends is_whitespace rest ->
    (b = [] -> ends (letter false) rest) ->
    ~ In w [lit "param"; lit "return"; lit "var"; lit "deprecated"; lit "property"] ->
    Doc (after p (lit "@" ++ w ++ b)) rest tags dep words ->
    Doc p (lit "@" ++ w ++ b ++ rest) tags dep words.

Definition is_param (n : Node) : bool := match n with NDocCommentParam _ _ _ => true | _ => false end.
Definition is_var (n : Node) : bool := match n with NDocCommentVar _ _ _ => true | _ => false end.
Definition is_property (n : Node) : bool := match n with NDocCommentProperty _ _ _ => true | _ => false end.
Definition is_return (n : Node) : bool := match n with NDocCommentReturn _ _ => true | _ => false end.

(** * Proofs *)
Definition st (p : N * N) (text : str) : dst := mkDst (fst p) (snd p) text.
Definition no_cr (text : str) : Prop := ~ In 13 text.

Lemma after_app : forall p a b, after p (a ++ b) = after (after p a) b.
Proof. intros p a b. unfold after. apply fold_left_app. Qed.
Lemma after_one : forall p c, after p [c] = moved p c.
Proof. reflexivity. Qed.
Lemma no_cr_app : forall a b, no_cr (a ++ b) -> no_cr a /\ no_cr b.
Proof. intros a b h. unfold no_cr in *. rewrite in_app_iff in h. tauto. Qed.
Lemma adv : forall p c r, c <> 13 -> d_advance (st p (c :: r)) = (Some c, st (moved p c) r).
Proof.
  intros p c r h. unfold d_advance, st, moved. cbn. apply N.eqb_neq in h. rewrite h, orb_false_r.
  destruct (c =? 10); reflexivity.
Qed.
Lemma ident_go : forall a w r p acc, is_word a w -> ends (letter a) r -> no_cr w ->
  d_ident_go (w ++ r) (fst p) (snd p) a acc = (rev acc ++ w, st (after p w) r).
Proof.
  intros a w r. induction w as [|c w IH]; intros p acc hw hr hc.
  - cbn [app]. rewrite app_nil_r. destruct r as [|x r]; cbn [d_ident_go]; [reflexivity|].
    unfold ends, letter in hr. rewrite hr. reflexivity.
  - inversion hw as [|? ? [hw1 _] hw2]; subst. cbn [app d_ident_go].
    unfold letter in hw1. rewrite hw1. assert (c <> 13) by (intros ->; apply hc; left; reflexivity).
    change (mkDst (fst p) (snd p) (c :: w ++ r)) with (st p (c :: w ++ r)). rewrite adv by assumption. cbn [snd].
    unfold st at 1 2. cbn [d_line d_col]. rewrite IH; [|exact hw2|exact hr|].
    + cbn [rev]. rewrite <- app_assoc. reflexivity.
    + intros h. apply hc. right. exact h.
Qed.
Lemma ident : forall a w r p, is_word a w -> ends (letter a) r -> no_cr w ->
  d_collect_identifier a (st p (w ++ r)) = (w, st (after p w) r).
Proof. intros a w r p h1 h2 h3. unfold d_collect_identifier. cbn [st d_chars d_line d_col]. now rewrite ident_go. Qed.
Lemma skip : forall b r p, blanks b -> ends is_whitespace r -> no_cr b -> d_skip_blanks (st p (b ++ r)) = st (after p b) r.
Proof.
  intros b r. unfold d_skip_blanks. cbn [st d_chars d_line d_col].
  induction b as [|c b IH]; intros p hb hr hc.
  - cbn [app]. destruct r as [|x r]; cbn [d_skip_go]; [reflexivity|]. unfold ends in hr. rewrite hr. reflexivity.
  - inversion hb as [|? ? [hb1 _] hb2]; subst. cbn [app d_skip_go]. rewrite hb1.
    assert (c <> 13) by (intros ->; apply hc; left; reflexivity).
    change (mkDst (fst p) (snd p) (c :: b ++ r)) with (st p (c :: b ++ r)). rewrite adv by assumption. cbn [snd st d_line d_col].
    apply (IH (moved p c)); [exact hb2|exact hr|]. intros h. apply hc. right. exact h.
Qed.
Lemma skip_none : forall r p, ends is_whitespace r -> d_skip_blanks (st p r) = st p r.
Proof. intros r p h. apply (skip [] r p); [constructor|exact h|intros []]. Qed.
Lemma line_go : forall d last r p acc, on_line d -> no_cr d -> (last = true -> r = []) ->
  d_line_go (d ++ (if last : bool then [] else [10]) ++ r) (fst p) (snd p) acc =
  (rev acc ++ d, st (after p (d ++ if last then [] else [10])) r).
Proof.
  intros d last r. induction d as [|c d IH]; intros p acc hd hc hl.
  - rewrite app_nil_r. destruct last; cbn [app].
    + rewrite (hl eq_refl). reflexivity.
    + cbn [d_line_go N.eqb Pos.eqb]. change (mkDst (fst p) (snd p) (10 :: r)) with (st p (10 :: r)).
      rewrite adv by discriminate. reflexivity.
  - cbn [app d_line_go]. assert (c <> 13) by (intros ->; apply hc; left; reflexivity).
    assert (c <> 10) by (intros ->; apply hd; left; reflexivity).
    change (mkDst (fst p) (snd p) (c :: ?x)) with (st p (c :: x)).
    rewrite adv by assumption. cbn [snd st d_line d_col]. apply N.eqb_neq in H0. rewrite H0. rewrite IH.
    + cbn [rev]. rewrite <- app_assoc. reflexivity.
    + intros h. apply hd. right. exact h.
    + intros h. apply hc. right. exact h.
    + exact hl.
Qed.
Lemma rest_line : forall text d last r p, closes text d last -> no_cr text -> (last = true -> r = []) ->
  d_rest_of_line (st p (text ++ r)) = (d, st (after p text) r).
Proof.
  intros text d last r p [h1 ->] h2 h3. apply no_cr_app in h2 as [h2 _]. unfold d_rest_of_line. cbn [st d_chars d_line d_col].
  rewrite <- app_assoc. apply (line_go d last r p []); assumption.
Qed.

Lemma word_type_eq : forall w ty, word_type w ty -> d_token_type w = ty.
Proof.
  intros w ty h. unfold word_type in h. unfold d_token_type. cbv zeta. generalize dependent (to_lowercase w). intros n [h|[h ->]].
  - unfold type_words in h. cbn [In] in h. repeat (destruct h as [h|h]; [injection h as <- <-; reflexivity|]). contradiction h.
  - assert (H : forall s, In (lit s) (map fst type_words) -> str_eqb n (lit s) = false).
    { intros s hs. destruct (str_eqb_spec n (lit s)) as [->|]; [contradiction|reflexivity]. }
    repeat rewrite H by (cbn; auto 30). reflexivity.
Qed.
Lemma ends_app : forall k a b, a <> [] -> ends k a -> ends k (a ++ b).
Proof. intros k [|c a] b h1 h2; [contradiction|exact h2]. Qed.
Lemma blank_ends : forall b r k, b <> [] -> blanks b -> (forall c, is_whitespace c = true -> is_alnum c = false -> k c = false) ->
  ends k (b ++ r).
Proof. intros [|c b] r k h1 h2 h3; [contradiction|]. inversion h2 as [|? ? [q1 q2] _]; subst. cbn. apply h3; assumption. Qed.
Lemma blank_not : forall c k, is_whitespace c = true -> is_whitespace k = false -> (c =? k) = false.
Proof. intros c k h1 h2. apply N.eqb_neq. intros ->. congruence. Qed.

(** What may follow a name or a type *)
Definition stops (this : bool) (c : char) : bool := letter this c || (c =? 92) || (c =? 91).
Definition halts (this : bool) (c : char) : bool := stops this c || (c =? 124).
Lemma blank_halts : forall this c, is_whitespace c = true -> is_alnum c = false -> halts this c = false.
Proof.
  intros this c h1 h2. unfold halts, stops, letter. rewrite h2.
  rewrite (blank_not c 95), (blank_not c 36), (blank_not c 92), (blank_not c 91), (blank_not c 124) by (assumption || reflexivity).
  reflexivity.
Qed.
Definition brackets (many : bool) : str := if many then lit "[]" else [].

Lemma name_read : forall this p text ts, Name this p text ts -> forall fuel parts (many : bool) r,
  (List.length (text ++ brackets many ++ r) < fuel)%nat -> no_cr text -> (many = false -> ends (stops this) r) ->
  d_type_ref fuel this parts (st p (text ++ brackets many ++ r)) =
  Some (Some (mkTypeRef (parts ++ ts) many), st (after p (text ++ brackets many)) r).
Proof.
  intros this p text ts h.
  induction h as [p w ty hn hw ht|p text ts h IH|p w ty text ts hn hw ht h IH]; intros fuel parts many r hf hc hr.
  - destruct fuel as [|fuel]; [inversion hf|]. cbn [d_type_ref].
    assert (he : ends (letter this) (brackets many ++ r)).
    { destruct many; [reflexivity|]. specialize (hr eq_refl). cbn [brackets app]. destruct r as [|c r]; [exact I|].
      unfold ends, stops in hr |- *. apply orb_false_iff in hr as [hr _]. apply orb_false_iff in hr as [hr _]. exact hr. }
    rewrite (ident this w _ p hw he hc). destruct w as [|c0 w0] eqn:ew; [contradiction|]. rewrite <- ew in *. clear ew.
    rewrite (word_type_eq _ _ ht). destruct many; cbn [brackets app].
    + change (lit "[]" ++ r) with (91 :: 93 :: r). cbn [d_peek st d_chars].
      change (91 =? 92) with false. change (91 =? 91) with true. cbv iota.
      change (mkDst (fst (after p w)) (snd (after p w)) (91 :: 93 :: r)) with (st (after p w) (91 :: 93 :: r)).
      rewrite adv by discriminate. cbn [snd]. rewrite adv by discriminate. change (93 =? 93) with true. cbv iota.
      rewrite after_app. destruct (parts ++ [token_named ty (d_line (st p (w ++ 91 :: 93 :: r))) (d_col (st p (w ++ 91 :: 93 :: r))) 0 w]) eqn:ep;
        [destruct parts; discriminate ep|]. rewrite <- ep. reflexivity.
    + specialize (hr eq_refl). rewrite app_nil_r. 
      destruct (parts ++ [token_named ty (d_line (st p (w ++ r))) (d_col (st p (w ++ r))) 0 w]) eqn:ep;
        [destruct parts; discriminate ep|]. rewrite <- ep.
      destruct r as [|c r]; cbn [d_peek st d_chars]; [reflexivity|].
      unfold ends, stops in hr. apply orb_false_iff in hr as [hr h3]. apply orb_false_iff in hr as [hr h2].
      rewrite h2, h3. reflexivity.
  - destruct fuel as [|fuel]; [inversion hf|]. cbn [d_type_ref].
    change (lit "\" ++ text) with (92 :: text) in *. cbn [app].
    pose proof (ident this [] (92 :: text ++ brackets many ++ r) p (Forall_nil _)) as hi. cbn [app after fold_left] in hi.
    rewrite hi; [|cbn; destruct this; reflexivity|intros []]. clear hi.
    cbn [d_peek st d_chars]. change (92 =? 92) with true. cbv iota.
    match goal with |- context[d_advance ?x] => change x with (st p (92 :: text ++ brackets many ++ r)) end.
    rewrite adv by discriminate. cbn [snd].
    change (moved p 92) with (after p (lit "\")). rewrite IH.
    + rewrite <- app_assoc. reflexivity.
    + cbn [app List.length] in hf. apply PeanoNat.Nat.succ_lt_mono. exact hf.
    + intros hx. apply hc. right. exact hx.
    + exact hr.
  - destruct fuel as [|fuel]; [inversion hf|]. cbn [d_type_ref].
    apply no_cr_app in hc as [hc1 hc2]. rewrite <- !app_assoc in *.
    change (lit "\" ++ text ++ brackets many ++ r) with (92 :: text ++ brackets many ++ r) in *.
    rewrite (ident this w (92 :: text ++ brackets many ++ r) p hw); [|cbn; destruct this; reflexivity|exact hc1].
    destruct w as [|c0 w0] eqn:ew; [contradiction|]. rewrite <- ew in *.
    rewrite (word_type_eq _ _ ht).
    cbn [d_peek st d_chars]. change (92 =? 92) with true. cbv iota.
    match goal with |- context[d_advance ?x] => change x with (st (after p w) (92 :: text ++ brackets many ++ r)) end.
    rewrite adv by discriminate. cbn [snd].
    rewrite after_app in IH. change (after (after p w) (lit "\")) with (moved (after p w) 92) in IH. rewrite IH.
    + rewrite <- !app_assoc. do 2 f_equal. f_equal. rewrite !after_app. reflexivity.
    + rewrite ew in hf. cbn [app List.length] in hf. rewrite app_length in hf. cbn [List.length] in hf. lia.
    + intros hx. apply hc2. right. exact hx.
    + exact hr.
Qed.
Lemma types_read : forall this p text trs, Types this p text trs -> forall fuel acc r,
  (List.length (text ++ r) < fuel)%nat -> no_cr text -> ends (halts this) r ->
  d_type_refs fuel this acc (st p (text ++ r)) = Some (acc ++ trs, st (after p text) r).
Proof.
  intros this p text trs h. induction h as [p name ts many h|p name ts many text trs h h2 IH]; intros fuel acc r hf hc hr.
  - destruct fuel as [|fuel]; [inversion hf|]. cbn [d_type_refs]. apply no_cr_app in hc as [hc1 _].
    change (if many then lit "[]" else []) with (brackets many) in *. rewrite <- app_assoc.
    rewrite (name_read _ _ _ _ h).
    + destruct r as [|c r]; cbn [d_peek st d_chars]; [reflexivity|]. unfold ends, halts in hr. apply orb_false_iff in hr as [_ hr].
      rewrite hr. reflexivity.
    + unfold d_fuel. cbn [st d_chars]. lia.
    + exact hc1.
    + intros _. destruct r as [|c r]; [exact I|]. unfold ends, halts in hr |- *. apply orb_false_iff in hr as [hr _]. exact hr.
  - destruct fuel as [|fuel]; [inversion hf|]. cbn [d_type_refs]. 
    change (if many then lit "[]" else []) with (brackets many) in *. change (lit "|" ++ text) with (124 :: text) in *.
    apply no_cr_app in hc as [hc1 hc2]. apply no_cr_app in hc2 as [_ hc2]. rewrite <- !app_assoc in *. cbn [app] in *.
    rewrite (name_read _ _ _ _ h).
    + cbn [d_peek st d_chars]. change (124 =? 124) with true. cbv iota.
      match goal with |- context[d_advance ?x] => change x with (st (after p (name ++ brackets many)) (124 :: text ++ r)) end.
      rewrite adv by discriminate. cbn [snd]. rewrite app_assoc, after_app in IH. change (after (after p (name ++ brackets many)) (lit "|")) with
        (moved (after p (name ++ brackets many)) 124) in IH. rewrite IH.
      * rewrite <- (app_assoc acc), (app_assoc name), (after_app p (name ++ brackets many)). reflexivity.
      * repeat (rewrite app_length in hf || cbn [List.length] in hf). rewrite app_length. lia.
      * intros hx. apply hc2. right. exact hx.
      * exact hr.
    + unfold d_fuel. cbn [st d_chars]. lia.
    + exact hc1.
    + intros _. reflexivity.
Qed.
Lemma name_start : forall this p text ts, Name this p text ts -> text <> [] /\ ends is_whitespace text.
Proof.
  intros this p text ts h. destruct h as [p w ty h hw _|p text ts _|p w ty text ts h hw _ _].
  - split; [exact h|]. destruct w; [contradiction|]. inversion hw as [|? ? [_ q] _]; subst. exact q.
  - split; [discriminate|reflexivity].
  - destruct w; [contradiction|]. split; [discriminate|]. inversion hw as [|? ? [_ q] _]; subst. exact q.
Qed.
Lemma types_start : forall this p text trs, Types this p text trs -> text <> [] /\ ends is_whitespace text /\ trs <> [].
Proof.
  intros this p text trs h. destruct h as [p name ts many h|p name ts many text trs h h2]; apply name_start in h as [h1 h3];
    (split; [destruct name; [contradiction|discriminate]|]); (split; [apply ends_app; assumption|discriminate]).
Qed.
Lemma white_dollar : is_whitespace 36 = false.
Proof. reflexivity. Qed.
Lemma types_blank : forall p types trs b r, Types false p types trs -> no_cr types -> b <> [] -> blanks b ->
  d_type_refs (d_fuel (st p (types ++ b ++ r))) false [] (st p (types ++ b ++ r)) = Some (trs, st (after p types) (b ++ r)).
Proof.
  intros p types trs b r h hc h1 h2. rewrite (types_read _ _ _ _ h).
  - reflexivity.
  - unfold d_fuel. cbn [st d_chars]. lia.
  - exact hc.
  - apply blank_ends; [exact h1|exact h2|]. intros c q1 q2. apply blank_halts; assumption.
Qed.

Lemma named_read : forall p text trs name descr last rest, Named p text trs name descr last -> (last = true -> rest = []) ->
  no_cr text -> d_named (st p (text ++ rest)) = Some ((trs, name, descr), st (after p text) rest).
Proof.
  intros p text trs name descr last rest h hl hc. unfold d_named.
  destruct h as [types trs b w text descr last h h1 h2 h3 h4 h5 h6 h7|w text descr last h4 h5 h6 h7|types trs b text descr last h h1 h2 h3 h6 h7 h8].
  - apply no_cr_app in hc as [hc1 hc2]. apply no_cr_app in hc2 as [hc2 hc3]. apply no_cr_app in hc3 as [_ hc3].
    apply no_cr_app in hc3 as [hc3 hc4]. rewrite <- !app_assoc. destruct (types_start _ _ _ _ h) as (hs1 & hs2 & hs3).
    rewrite skip_none by (apply ends_app; assumption).
    rewrite (types_blank _ _ _ _ _ h hc1 h1 h2). rewrite skip by (assumption || reflexivity).
    change (lit "$" ++ w ++ text ++ rest) with (36 :: w ++ text ++ rest). cbn [d_peek st d_chars]. change (36 =? 36) with true. cbv iota.
    match goal with |- context[d_advance ?x] => change x with (st (after (after p types) b) (36 :: w ++ text ++ rest)) end.
    rewrite adv by discriminate. cbn [snd]. rewrite ident; [|exact h5| |exact hc3].
    + rewrite (rest_line text descr last rest _ h6 hc4 hl). unfold at_place, token_named. cbn [d_line d_col st].
      rewrite !after_app. reflexivity.
    + destruct text as [|c text]; [|exact h7]. destruct h6 as [_ h6]. destruct last; [rewrite (hl eq_refl); exact I|].
      destruct descr; discriminate h6.
  - apply no_cr_app in hc as [_ hc]. apply no_cr_app in hc as [hc3 hc4]. rewrite <- !app_assoc.
    change (lit "$" ++ w ++ text ++ rest) with (36 :: w ++ text ++ rest). rewrite skip_none by reflexivity.
    unfold d_fuel. cbn [d_chars st List.length d_type_refs]. unfold d_fuel. cbn [d_chars List.length d_type_ref].
    pose proof (ident false [] (36 :: w ++ text ++ rest) p (Forall_nil _)) as hi. cbn [app after fold_left] in hi.
    change (mkDst (fst p) (snd p) (36 :: w ++ text ++ rest)) with (st p (36 :: w ++ text ++ rest)).
    rewrite hi; [|reflexivity|intros []]. clear hi. cbn [d_peek st d_chars]. change (36 =? 92) with false. change (36 =? 91) with false. cbv iota.
    change (mkDst (fst p) (snd p) (36 :: w ++ text ++ rest)) with (st p (36 :: w ++ text ++ rest)).
    rewrite skip_none by reflexivity. cbn [d_peek st d_chars]. change (36 =? 36) with true. cbv iota.
    match goal with |- context[d_advance ?x] => change x with (st p (36 :: w ++ text ++ rest)) end.
    rewrite adv by discriminate. cbn [snd]. rewrite ident; [|exact h5| |exact hc3].
    + rewrite (rest_line text descr last rest _ h6 hc4 hl). unfold at_place, token_named. cbn [d_line d_col st].
      rewrite !after_app. reflexivity.
    + destruct text as [|c text]; [|exact h7]. destruct h6 as [_ h6]. destruct last; [rewrite (hl eq_refl); exact I|].
      destruct descr; discriminate h6.
  - apply no_cr_app in hc as [hc1 hc2]. apply no_cr_app in hc2 as [hc2 hc4].
    rewrite <- !app_assoc. destruct (types_start _ _ _ _ h) as (hs1 & hs2 & hs3).
    rewrite skip_none by (apply ends_app; assumption).
    rewrite (types_blank _ _ _ _ _ h hc1 h1 h2).
    assert (ht : text = [] -> rest = []).
    { intros ->. destruct h6 as [_ h6]. destruct last; [auto|]. destruct descr; discriminate h6. }
    rewrite skip; [|exact h2| |exact hc2].
    2:{ destruct text as [|c text]; [rewrite (ht eq_refl); exact I|exact h7]. }
    assert (hp : match d_peek (st (after (after p types) b) (text ++ rest)) with
       | Some c => if c =? 36 then d_collect_identifier false (snd (d_advance (st (after (after p types) b) (text ++ rest))))
                   else ([], st (after (after p types) b) (text ++ rest))
       | None => ([], st (after (after p types) b) (text ++ rest)) end = ([], st (after (after p types) b) (text ++ rest))).
    { destruct text as [|c text]; [rewrite (ht eq_refl); reflexivity|]. cbn [app d_peek st d_chars]. cbn in h8. rewrite h8. reflexivity. }
    rewrite hp. rewrite (rest_line text descr last rest _ h6 hc4 hl). unfold at_place, token_named. cbn [d_line d_col st].
    rewrite !after_app. reflexivity.
Qed.
(** What the tags add to what has been read *)
Definition gathered (a : dacc) (tags : list Node) (dep : bool) (words : str) : dacc :=
  mkDacc (rev words ++ a_description a) (a_deprecated a || dep) (a_properties a ++ filter is_property tags)
    (a_params a ++ filter is_param tags) (a_returns a ++ filter is_return tags) (a_vars a ++ filter is_var tags).

(** A tag: its name, and blanks *)
Lemma tag_read : forall p w b r, is_word false w -> blanks b -> ends is_whitespace r -> (b = [] -> ends (letter false) r) ->
  no_cr w -> no_cr b ->
  d_advance (st p (64 :: w ++ b ++ r)) = (Some 64, st (moved p 64) (w ++ b ++ r)) /\
  d_collect_identifier false (st (moved p 64) (w ++ b ++ r)) = (w, st (after (moved p 64) w) (b ++ r)) /\
  d_skip_blanks (st (after (moved p 64) w) (b ++ r)) = st (after p (64 :: w ++ b)) r.
Proof.
  intros p w b r hw hb hr hn hc1 hc2. split; [apply adv; discriminate|]. split.
  - apply ident; [exact hw| |exact hc1]. destruct b as [|c b]; [apply hn; reflexivity|].
    apply blank_ends; [discriminate|exact hb|]. intros x q1 q2. pose proof (blank_halts false x q1 q2) as h. unfold halts, stops in h.
    apply orb_false_iff in h as [h _]. apply orb_false_iff in h as [h _]. apply orb_false_iff in h as [h _]. exact h.
  - rewrite skip by assumption. change (64 :: w ++ b) with ([64] ++ w ++ b). rewrite !after_app. reflexivity.
Qed.
Lemma named_start : forall p text trs name descr last, Named p text trs name descr last -> text <> [] /\ ends is_whitespace text.
Proof.
  intros p text trs name descr last h.
  destruct h as [types trs b w text descr last h h1 h2 h3 h4 h5 h6 h7|w text descr last h4 h5 h6 h7|types trs b text descr last h h1 h2 h3 h6 h7 h8].
  - apply types_start in h as (q1 & q2 & _). split; [destruct types; [contradiction|discriminate]|apply ends_app; assumption].
  - split; [discriminate|reflexivity].
  - apply types_start in h as (q1 & q2 & _). split; [destruct types; [contradiction|discriminate]|apply ends_app; assumption].
Qed.

Ltac a_word := match goal with |- is_word ?b ?w => let v := eval vm_compute in w in change (is_word b v) end;
  unfold is_word; repeat (apply Forall_cons; [split; reflexivity|]); apply Forall_nil.
Lemma doc_read : forall p text tags dep words, Doc p text tags dep words -> no_cr text ->
  forall fuel a, (List.length text < fuel)%nat -> d_scan fuel (st p text) a = Some (gathered a tags dep words).
Proof.
  intros p text tags dep words h.
  induction h as [p|p c text tags dep words hc h IH
    |p b text trs name descr last rest tags dep words h1 h2 h3 h4 h5 h IH
    |p b text trs name descr last rest tags dep words h1 h2 h3 h4 h5 h IH
    |p b text trs name descr last rest tags dep words h1 h2 h3 h4 h5 h IH
    |p b types trs b2 text descr last rest tags dep words h1 h2 h3 h4 h5 h6 h7 h8 h9 h10 h IH
    |p b rest tags dep words h1 h2 h3 h IH
    |p w b rest tags dep words h0 h1 h2 h3 h4 h IH]; intros hn fuel a hf; (destruct fuel as [|fuel]; [inversion hf|]).
  - cbn [d_scan st d_advance d_chars]. unfold gathered. cbn. rewrite orb_false_r, !app_nil_r. destruct a; reflexivity.
  - cbn [d_scan]. rewrite adv by (intros ->; apply hn; left; reflexivity). apply N.eqb_neq in hc. rewrite hc.
    assert (hn2 : no_cr text) by (intros hx; apply hn; right; exact hx).
    assert (hf2 : (List.length text < fuel)%nat) by (cbn [List.length] in hf; lia).
    destruct (c =? 42); [apply IH; assumption|]. rewrite IH by assumption. unfold gathered. cbn.
    rewrite <- app_assoc. reflexivity.
  - cbn [d_scan]. change (lit "@param" ++ b ++ text ++ rest) with (64 :: lit "param" ++ b ++ text ++ rest) in *.
    destruct (named_start _ _ _ _ _ _ h4) as [q1 q2].
    apply (no_cr_app [64]) in hn as [_ hn]. apply no_cr_app in hn as [_ hn]. apply no_cr_app in hn as [hb hn]. apply no_cr_app in hn as [ht hr].
    destruct (tag_read p (lit "param") b (text ++ rest)) as (e1 & e2 & e3);
      [a_word|exact h2|apply ends_app; assumption|intros ->; contradiction|intros hx; vm_compute in hx; intuition discriminate|exact hb|].
    rewrite e1. change (64 =? 64) with true. cbv iota. rewrite e2, e3.
    change (str_eqb (lit "param") (lit "param")) with true. cbv iota.
    change (64 :: lit "param" ++ b) with (lit "@param" ++ b).
    rewrite (named_read _ _ _ _ _ _ _ h4 h5 ht). rewrite <- after_app, <- app_assoc. rewrite IH.
    + unfold gathered. cbn. rewrite <- app_assoc. reflexivity.
    + exact hr.
    + cbn [List.length] in hf. rewrite !app_length in hf. lia.
  - cbn [d_scan]. change (lit "@var" ++ b ++ text ++ rest) with (64 :: lit "var" ++ b ++ text ++ rest) in *.
    destruct (named_start _ _ _ _ _ _ h4) as [q1 q2].
    apply (no_cr_app [64]) in hn as [_ hn]. apply no_cr_app in hn as [_ hn]. apply no_cr_app in hn as [hb hn]. apply no_cr_app in hn as [ht hr].
    destruct (tag_read p (lit "var") b (text ++ rest)) as (e1 & e2 & e3);
      [a_word|exact h2|apply ends_app; assumption|intros ->; contradiction|intros hx; vm_compute in hx; intuition discriminate|exact hb|].
    rewrite e1. change (64 =? 64) with true. cbv iota. rewrite e2, e3.
    change (str_eqb (lit "var") (lit "param")) with false. change (str_eqb (lit "var") (lit "return")) with false.
    change (str_eqb (lit "var") (lit "var")) with true. cbv iota.
    change (64 :: lit "var" ++ b) with (lit "@var" ++ b).
    rewrite (named_read _ _ _ _ _ _ _ h4 h5 ht). rewrite <- after_app, <- app_assoc. rewrite IH.
    + unfold gathered. cbn. rewrite <- app_assoc. reflexivity.
    + exact hr.
    + cbn [List.length] in hf. rewrite !app_length in hf. lia.
  - cbn [d_scan]. change (lit "@property" ++ b ++ text ++ rest) with (64 :: lit "property" ++ b ++ text ++ rest) in *.
    destruct (named_start _ _ _ _ _ _ h4) as [q1 q2].
    apply (no_cr_app [64]) in hn as [_ hn]. apply no_cr_app in hn as [_ hn]. apply no_cr_app in hn as [hb hn]. apply no_cr_app in hn as [ht hr].
    destruct (tag_read p (lit "property") b (text ++ rest)) as (e1 & e2 & e3);
      [a_word|exact h2|apply ends_app; assumption|intros ->; contradiction|intros hx; vm_compute in hx; intuition discriminate|exact hb|].
    rewrite e1. change (64 =? 64) with true. cbv iota. rewrite e2, e3.
    change (str_eqb (lit "property") (lit "param")) with false. change (str_eqb (lit "property") (lit "return")) with false.
    change (str_eqb (lit "property") (lit "var")) with false. change (str_eqb (lit "property") (lit "deprecated")) with false.
    change (str_eqb (lit "property") (lit "property")) with true. cbv iota.
    change (64 :: lit "property" ++ b) with (lit "@property" ++ b).
    rewrite (named_read _ _ _ _ _ _ _ h4 h5 ht). rewrite <- after_app, <- app_assoc. rewrite IH.
    + unfold gathered. cbn. rewrite <- app_assoc. destruct trs; reflexivity.
    + exact hr.
    + cbn [List.length] in hf. rewrite !app_length in hf. lia.
  - cbn [d_scan]. change (lit "@return" ++ b ++ types ++ b2 ++ text ++ rest) with (64 :: lit "return" ++ b ++ types ++ b2 ++ text ++ rest) in *.
    destruct (types_start _ _ _ _ h4) as (q1 & q2 & q3).
    apply (no_cr_app [64]) in hn as [_ hn]. apply no_cr_app in hn as [_ hn]. apply no_cr_app in hn as [hb hn].
    apply no_cr_app in hn as [hty hn]. apply no_cr_app in hn as [hb2 hn]. apply no_cr_app in hn as [ht hr].
    destruct (tag_read p (lit "return") b (types ++ b2 ++ text ++ rest)) as (e1 & e2 & e3);
      [a_word|exact h2|apply ends_app; assumption|intros ->; contradiction|intros hx; vm_compute in hx; intuition discriminate|exact hb|].
    rewrite e1. change (64 =? 64) with true. cbv iota. rewrite e2, e3.
    change (str_eqb (lit "return") (lit "param")) with false. change (str_eqb (lit "return") (lit "return")) with true. cbv iota.
    change (64 :: lit "return" ++ b) with (lit "@return" ++ b).
    rewrite skip_none by (apply ends_app; assumption). cbv zeta.
    rewrite (types_read _ _ _ _ h4).
    + rewrite skip; [|exact h6| |exact hb2].
      * rewrite (rest_line text descr last rest _ h8 ht h10). rewrite <- !after_app, <- !app_assoc. rewrite IH.
        -- unfold gathered. cbn. rewrite <- app_assoc. destruct trs; [contradiction|reflexivity].
        -- exact hr.
        -- cbn [List.length] in hf. rewrite !app_length in hf. lia.
      * destruct text as [|c text]; [|exact h9]. destruct h8 as [_ h8]. destruct last; [rewrite (h10 eq_refl); exact I|].
        destruct descr; discriminate h8.
    + unfold d_fuel. cbn [st d_chars]. lia.
    + exact hty.
    + apply blank_ends; [exact h5|exact h6|]. intros c x1 x2. apply blank_halts; assumption.
  - cbn [d_scan]. change (lit "@deprecated" ++ b ++ rest) with (64 :: lit "deprecated" ++ b ++ rest) in *.
    apply (no_cr_app [64]) in hn as [_ hn]. apply no_cr_app in hn as [_ hn]. apply no_cr_app in hn as [hb hr].
    destruct (tag_read p (lit "deprecated") b rest) as (e1 & e2 & e3);
      [a_word|exact h1|exact h2|exact h3|intros hx; vm_compute in hx; intuition discriminate|exact hb|].
    rewrite e1. change (64 =? 64) with true. cbv iota. rewrite e2, e3.
    change (str_eqb (lit "deprecated") (lit "param")) with false. change (str_eqb (lit "deprecated") (lit "return")) with false.
    change (str_eqb (lit "deprecated") (lit "var")) with false. change (str_eqb (lit "deprecated") (lit "deprecated")) with true. cbv iota.
    change (64 :: lit "deprecated" ++ b) with (lit "@deprecated" ++ b). rewrite IH.
    + unfold gathered. cbn. rewrite orb_true_r. reflexivity.
    + exact hr.
    + cbn [List.length] in hf. rewrite !app_length in hf. lia.
  - cbn [d_scan]. change (lit "@" ++ w ++ b ++ rest) with (64 :: w ++ b ++ rest) in *.
    apply (no_cr_app [64]) in hn as [_ hn]. apply no_cr_app in hn as [hw hn]. apply no_cr_app in hn as [hb hr].
    destruct (tag_read p w b rest) as (e1 & e2 & e3); [exact h0|exact h1|exact h2|exact h3|exact hw|exact hb|].
    rewrite e1. change (64 =? 64) with true. cbv iota. rewrite e2, e3.
    assert (H : forall s, In s [lit "param"; lit "return"; lit "var"; lit "deprecated"; lit "property"] -> str_eqb w s = false).
    { intros s hs. destruct (str_eqb_spec w s) as [->|]; [contradiction|reflexivity]. }
    rewrite !H by (cbn; auto 10). change (64 :: w ++ b) with (lit "@" ++ w ++ b). apply IH; [exact hr|].
    cbn [List.length] in hf. rewrite !app_length in hf. lia.
Qed.

(** The text of a comment starts behind the first two characters of the comment and
    has no carriage returns (C08, C07). *)
Theorem C60_partial : forall comment text tags deprecated words,
  t_label comment = Some text -> ~ In 13 text ->
  Doc (t_line comment, t_col comment + 2) text tags deprecated words ->
  docblock_scan comment =
  Some (NDocComment comment (filter is_return tags) words deprecated (filter is_param tags) (filter is_var tags)
          (filter is_property tags)).
Proof.
  intros comment text tags deprecated words hl hc h. unfold docblock_scan. rewrite hl.
  change (mkDst (t_line comment) (t_col comment + 2) text) with (st (t_line comment, t_col comment + 2) text).
  rewrite (doc_read _ _ _ _ _ h hc) by (unfold d_fuel; cbn [st d_chars]; lia).
  unfold gathered. cbn. rewrite rev_app_distr, rev_involutive. reflexivity.
Qed.

(** A parameter is described by the first tag with its name. *)
Theorem C60_parameter : forall comment text tags deprecated words doc name,
  t_label comment = Some text -> ~ In 13 text ->
  Doc (t_line comment, t_col comment + 2) text tags deprecated words -> docblock_scan comment = Some doc ->
  forall k trs descr before behind, tags = before ++ NDocCommentParam k (Some trs) descr :: behind -> t_label k = t_label name ->
  (forall k' trs' descr', In (NDocCommentParam k' trs' descr') before -> t_label k' <> t_label name) ->
  t_label name <> None ->
  param_comment_for (Some doc) name = Some (NDocCommentParam k (Some trs) descr).
Proof.
  intros comment text tags deprecated words doc name h1 h2 h3 h4 k trs descr before behind -> hk hb hn.
  rewrite (C60_partial _ _ _ _ _ h1 h2 h3) in h4. injection h4 as <-. cbn [param_comment_for].
  rewrite filter_app. cbn [filter is_param]. clear h3. induction before as [|b before IH]; cbn [filter app].
  - cbn [List.find]. rewrite hk. destruct (t_label name) as [l|]; [|contradiction].
    cbn. destruct (str_eqb_spec l l); [reflexivity|contradiction].
  - destruct b; cbn [is_param]; try (apply IH; intros; eapply hb; right; eassumption).
    pose proof (hb _ _ _ (or_introl eq_refl)) as hx. cbn [app List.find].
    match type of hx with t_label ?k' <> _ => replace (is_some (t_label k') && opt_str_eqb (t_label k') (t_label name)) with false;
      [apply IH; intros; eapply hb; right; eassumption|
       destruct (t_label k') as [x|], (t_label name) as [y|]; cbn; try reflexivity;
       destruct (str_eqb_spec x y); [congruence|reflexivity]] end.
Qed.
End DocComments.

(** * Cases *)

Local Existing Instance ascii_runtime | 9.

Lemma Doc_words : forall w p rest tags dep words, ~ In 64 w -> Doc (after p w) rest tags dep words ->
  Doc p (w ++ rest) tags dep (filter (fun c => negb (c =? 42)) w ++ words).
Proof.
  induction w as [|c w IH]; intros p rest tags dep words h1 h2; [exact h2|]. cbn [filter app].
  pose proof (Doc_text p c (w ++ rest) tags dep (filter (fun c => negb (c =? 42)) w ++ words)) as H.
  destruct (c =? 42); cbn [negb]; apply H; try (intros ->; apply h1; left; reflexivity);
    apply IH; [|exact h2| |exact h2]; intros hx; apply h1; right; exact hx.
Qed.
Ltac wordC := match goal with |- is_word ?b ?w => let v := eval vm_compute in w in change (is_word b v) end;
  unfold is_word; repeat (apply Forall_cons; [split; reflexivity|]); apply Forall_nil.
Ltac blankC := repeat (apply Forall_cons; [split; reflexivity|]); apply Forall_nil.
Ltac lineC := let h := fresh in intros h; vm_compute in h; intuition discriminate.
Ltac typeC := first [left; vm_compute; auto 30; fail|right; split; [lineC|reflexivity]].

Definition commentC : Token := mkToken 4 2 TMultilineComment (Some (lit "* Makes it.
 * @param Foo|\A\Bar[] $x the x
 * @var int $y
 * @deprecated
 * @throws E
 * @return $this|null done
 ")) (Some 7).
Example C60_case : exists text tags words,
  t_label commentC = Some text /\ ~ In 13 text /\
  Doc (t_line commentC, t_col commentC + 2) text tags true words /\
  map (fun n => match n with
                | NDocCommentParam k (Some l) d | NDocCommentVar k (Some l) d =>
                    (t_label k, (t_line k, t_col k), map (fun tr => (map t_label (kind tr), multiple tr)) l, d)
                | NDocCommentReturn (Some l) d => (None, (0, 0), map (fun tr => (map t_label (kind tr), multiple tr)) l, d)
                | _ => (None, (0, 0), [], []) end) tags =
  [(Some (lit "x"), (3, 23), [([Some (lit "Foo")], false); ([None; Some (lit "A"); None; Some (lit "Bar")], true)], lit " the x");
   (Some (lit "y"), (4, 12), [([Some (lit "int")], false)], []);
   (None, (0, 0), [([Some (lit "$this")], false); ([Some (lit "null")], false)], lit "done")].
Proof.
  eexists _, _, _. split; [reflexivity|]. split; [lineC|]. split.
  - match goal with |- Doc ?p _ ?tg ?dp ?ws => change (Doc p (lit "* Makes it.
 * " ++ lit "@param" ++ lit " " ++ ((lit "Foo" ++ (if false then lit "[]" else []) ++ lit "|" ++
       ((lit "\" ++ lit "A" ++ lit "\" ++ lit "Bar") ++ (if true then lit "[]" else []))) ++
       lit " " ++ lit "$" ++ lit "x" ++ lit " the x
") ++
 lit " * " ++ lit "@var" ++ lit " " ++ ((lit "int" ++ (if false then lit "[]" else [])) ++ lit " " ++ lit "$" ++ lit "y" ++ lit "
") ++
 lit " * " ++ lit "@deprecated" ++ lit "
 " ++ lit "* " ++ lit "@" ++ lit "throws" ++ lit " " ++ lit "E
 * " ++ lit "@return" ++ lit " " ++ (lit "$this" ++ (if false then lit "[]" else []) ++ lit "|" ++ (lit "null" ++ (if false then lit "[]" else []))) ++
   lit " " ++ lit "done
" ++ lit " " ++ []) tg dp ws) end.
    apply Doc_words; [lineC|].
    eapply (Doc_param _ (lit " ") _ _ _ (lit " the x") false); [discriminate|blankC|lineC| |discriminate|].
    { eapply Named_full; [|discriminate|blankC|lineC|discriminate|wordC|split; [lineC|reflexivity]|reflexivity].
      eapply (Types_more _ _ _ _ false); [eapply Name_one; [discriminate|wordC|typeC]|]. eapply (Types_one _ _ _ _ true).
      apply Name_root. eapply Name_more; [discriminate|wordC|typeC|]. eapply Name_one; [discriminate|wordC|typeC]. }
    apply Doc_words; [lineC|].
    eapply (Doc_var _ (lit " ") _ _ _ [] false); [discriminate|blankC|lineC| |discriminate|].
    { eapply Named_full; [|discriminate|blankC|lineC|discriminate|wordC|split; [lineC|reflexivity]|reflexivity].
      eapply (Types_one _ _ _ _ false). eapply Name_one; [discriminate|wordC|typeC]. }
    apply Doc_words; [lineC|].
    eapply Doc_deprecated; [blankC|reflexivity|discriminate|].
    apply Doc_words; [lineC|].
    eapply Doc_other; [wordC|blankC|reflexivity|discriminate|lineC|].
    apply Doc_words; [lineC|].
    eapply (Doc_return _ (lit " ") _ _ (lit " ") _ (lit "done") false); [discriminate|blankC|lineC| |discriminate|blankC|lineC|split; [lineC|reflexivity]|reflexivity|discriminate|].
    { eapply (Types_more _ _ _ _ false); [eapply Name_one; [discriminate|wordC|typeC]|]. eapply (Types_one _ _ _ _ false).
      eapply Name_one; [discriminate|wordC|typeC]. }
    apply Doc_words; [lineC|]. apply Doc_end.
  - vm_compute. reflexivity.
Qed.

(** The full claim is false of the code: a tag behind a [@return] or [@var] without a
    description or name is lost, because the blanks that are skipped include
    the end of the line; types such as [?Foo] or [array<int>] hide the name of
    the parameter; [@property-read Foo $x] is a property without a name. *)
Definition comment_of (text : string) : Token := mkToken 0 0 TMultilineComment (Some (lit text)) (Some 0).
Definition tags_of (text : string) : list (option str) :=
  match docblock_scan (comment_of text) with
  | Some (NDocComment _ returns _ _ params vars properties) =>
      flat_map (fun n => match n with NDocCommentParam k _ _ | NDocCommentProperty k _ _ => [t_label k] | _ => [] end)
        (params ++ properties)
  | _ => []
  end.
Theorem C60_refuted :
  tags_of "* @return Foo
 * @param Bar $x
 " = [] /\
  tags_of "* @var Foo
 * @property Bar $x
 " = [] /\
  tags_of "* @param ?Foo $x " = [Some []] /\
  tags_of "* @param array<int> $x " = [Some []] /\
  tags_of "* @property-read Foo $x " = [Some []] /\
  tags_of "* @param Bar $x
 * @return Foo
 " = [Some (lit "x")].
Proof. vm_compute. repeat split. Qed.

Print Assumptions C60_partial.
Print Assumptions C60_parameter.
Print Assumptions C60_refuted.
