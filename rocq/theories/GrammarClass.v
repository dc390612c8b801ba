(** Members and bodies of classes, read by the functions of Parser.v. *)

From Verif Require Import Base Token Node DocBlock Parser TokenFacts ParserBase SpecCalm SpecExpr SpecGrammar PrattFacts GrammarBase GrammarNames GrammarExpr.

Lemma look_names : forall l w n r, Names w n -> existsb (fun k => existsb (tt_eqb k) (TNamespaceSeparator :: words)) l = false -> look l (w ++ r) = false.
Proof. intros l w n r H Hl. destruct H as [w H|w c v n H Hc Hv]; rewrite <- ?app_assoc; now apply look_qualified. Qed.

(** * Traits *)

Lemma r_rule : forall w n, Rule w n -> forall s r, is TSemicolon s -> forall acc,
  takes (fun n =>
      class_or_member <- non_empty_type_ref n ;;
      paa <- consume_or_ignore TPaamayimNekudayim ;;
      x <- match paa with
           | Some _ => member <- non_empty_type_ref n ;; ret (Some class_or_member, member)
           | None => ret (None, class_or_member)
           end ;;
      alterations <- (as_token <- consume_or_ignore TAs ;;
        match as_token with
        | Some as_token =>
            visibility <- consume_one_of_or_ignore [TPrivate; TPublic; TProtected] ;;
            b <- next_token_one_of [TSemicolon] ;;
            if negb b then
              as_name <- consume_identifier ;;
              ret (acc ++ [(NUseTraitAs (fst x) paa (snd x) as_token visibility (Some as_name))])
            else
              ret (acc ++ [(NUseTraitAs (fst x) paa (snd x) as_token visibility None)])
        | None =>
            insteadof <- consume_or_ignore TInsteadof ;;
            match insteadof with
            | Some insteadof =>
                insteadof_list <- type_ref_list n ;;
                ret (acc ++ [(NUseTraitInsteadOf (fst x) paa (snd x) insteadof insteadof_list)])
            | None => ret acc
            end
        end) ;;
      consume_or_ff_after TSemicolon [TCloseCurly] ;;;
      (continue alterations : P (list Node + list Node))) (w ++ [s]) (eq (inl (acc ++ [n]))) r.
Proof.
  intros w n H s r Hs acc.
  assert (HS : forall w c pn m, Subject w c pn m -> forall B (K : nat -> option Token -> option Node * Node -> P B) v T x,
    look [TPaamayimNekudayim; TNamespaceSeparator] (v ++ x) = false ->
    takes (fun n => K n pn (c, m)) v T x ->
    takes (fun n => class_or_member <- non_empty_type_ref n ;;
      paa <- consume_or_ignore TPaamayimNekudayim ;;
      x <- match paa with
           | Some _ => member <- non_empty_type_ref n ;; ret (Some class_or_member, member)
           | None => ret (None, class_or_member)
           end ;; K n paa x) (w ++ v) T x).
  { clear. intros w c pn m H B K v T x Hl HK. destruct (look_two _ _ _ Hl) as [L1 L2]. destruct H as [w Hw|w pn v' Hw Hpn Hv].
    - eapply t_bind; [apply r_type_ref; [exact Hw|exact L2]|]. cbn beta. intros ? <-.
      eapply t_nil; [apply t_ignore_no; exact L1|]. cbn beta iota. eapply t_nil; [apply t_ret; reflexivity|]. exact HK.
    - rewrite <- app_assoc. cbn [app]. eapply t_bind; [apply r_type_ref; [exact Hw|look_]|]. cbn beta. intros ? <-. tk.
      eapply (t_bind _ _ _ _ v' v (eq (Some (named w), named v'))); [eapply t_all; [apply r_type_ref; [exact Hv|exact L2]|]|].
      + cbn beta. intros ? <-. apply t_ret. reflexivity.
      + cbn beta. intros ? <-. exact HK. }
  destruct H as [w c pn m t v l HSu Ht Hv|w c pn m t wv vis wi i HSu Ht Hvis Hi].
  - rewrite <- app_assoc. cbn [app]. eapply (HS _ _ _ _ HSu); [look_|]. cbn [fst snd].
    change (t :: v ++ [s]) with ((t :: v) ++ [s]). eapply (t_bind _ _ _ _ (t :: v) [s] (eq (acc ++ [NUseTraitInsteadOf c pn m t l]))).
    + no. tk. eapply t_all; [apply r_names; [exact Hv|look_]|]. cbn beta. intros ? <-. now apply t_ret.
    + cbn beta. intros ? <-. tk. now apply t_continue.
  - rewrite <- app_assoc. cbn [app]. eapply (HS _ _ _ _ HSu); [look_|]. cbn [fst snd].
    change (t :: (wv ++ wi) ++ [s]) with ((t :: wv ++ wi) ++ [s]).
    eapply (t_bind _ _ _ _ (t :: wv ++ wi) [s] (eq (acc ++ [NUseTraitAs c pn m t vis i]))).
    + tk. destruct Hvis as [[-> ->]|(x & -> & -> & Hx)].
      * cbn [app]. destruct Hi as [[-> ->]|(y & -> & -> & Hy)].
        -- no. yes. cbn [negb]. now apply t_ret.
        -- no. no. cbn [negb]. assert (W : word y) by (unfold is in Hy; unfold word, one_of_kinds; rewrite Hy; now left).
           tk. now apply t_ret.
      * cbn [app]. tk. destruct Hi as [[-> ->]|(y & -> & -> & Hy)].
        -- yes. cbn [negb]. now apply t_ret.
        -- no. cbn [negb]. assert (W : word y) by (unfold is in Hy; unfold word, one_of_kinds; rewrite Hy; now left).
           tk. now apply t_ret.
    + cbn beta. intros ? <-. tk. now apply t_continue.
Qed.

Lemma rule_head : forall w n, Rule w n -> headed (TNamespaceSeparator :: words) w.
Proof.
  assert (HS : forall w c pn m, Subject w c pn m -> headed (TNamespaceSeparator :: words) w).
  { intros w c pn m H. assert (X : forall w, Qualified w -> headed (TNamespaceSeparator :: words) w).
    { clear. intros w H. destruct (word_type w H) as (t & v & -> & [Ht|Ht]); apply headed_cons; [left; now symmetry|right; exact Ht]. }
    destruct H; [|apply headed_app]; now apply X. }
  intros w n H. destruct H; apply headed_app; eapply HS; eassumption.
Qed.

Lemma r_rules : forall w l, Rules w l -> forall tr a b r, is TOpenCurly a -> is TCloseCurly b ->
  takes (fun n => trait_usage_alteration_group n tr) (a :: w ++ [b]) (eq (NUseTraitAlterationBlock tr a l b)) r.
Proof.
  intros w l H tr a b r Ha Hb. unfold trait_usage_alteration_group. cbv zeta. tk.
  eapply (t_bind _ _ _ _ _ _ (eq l)); [|cbn beta; intros ? <-; tk; now apply t_ret].
  apply t_loop. accumulate. induction H as [|w n s v l Hw Hs H IH]; intros acc.
  - apply l_break. yes. done_. eexists. split; [reflexivity|]. exists []. now rewrite app_nil_r.
  - replace (w ++ s :: v) with ((w ++ [s]) ++ v) by now rewrite <- app_assoc.
    eapply (l_more _ _ _ _ _ _ (eq (acc ++ [n]))).
    + eapply t_nil; [apply t_one_of_no; rewrite <- app_assoc; eapply look_headed; [eapply rule_head; exact Hw|reflexivity]|]. cbn beta iota.
      eapply t_conseq; [|cbn beta; intros x Hx; exists (acc ++ [n]); split; [symmetry; exact Hx|reflexivity]].
      pose proof (r_rule w n Hw s (v ++ [b] ++ r) Hs acc) as X.
      intros st Hst. destruct (X st Hst) as (y & s' & [k G] & R). exists y, s'. split; [|exact R]. exists k. intros m Hm.
      rewrite <- (G m Hm). unfold bind. destruct (non_empty_type_ref m st) as [c1 s1|e1 s1| |]; try reflexivity.
      destruct (consume_or_ignore TPaamayimNekudayim s1) as [c2 s2|e2 s2| |]; try reflexivity.
      match goal with |- match ?X with _ => _ end = match ?Y with _ => _ end => change Y with X; destruct X as [c3 s3|e3 s3| |]; try reflexivity end.
      destruct (consume_or_ignore TAs s3) as [c4 s4|e4 s4| |]; reflexivity.
    + intros ? <-. eapply l_conseq; [apply IH|]. cbn beta. intros ? (l' & -> & <-). exists (n :: l). rewrite <- app_assoc. auto.
Qed.

Lemma r_use_trait : forall t w n r, is TUse t -> Member (t :: w) n ->
  takes (fun n => use_trait_statement n) (t :: w) (Member (t :: w)) r.
Proof.
  intros t w n r Ht H. unfold use_trait_statement, trait_usages. cbv zeta.
  assert (HM : forall x y wa ats wm, t :: w = wa ++ wm ++ x :: y -> Attributes wa ats -> Forall (one_of_kinds modifier_kinds) wm ->
    ~ is TUse x -> False).
  { intros x y wa ats wm E Ha Hm Hx. destruct (attributes_head _ _ Ha) as [->|(u & v & -> & Hu)].
    - destruct Hm as [|u wm Hu Hm]; [cbn [app] in E; injection E as -> ->; contradiction|].
      cbn [app] in E. injection E as -> ->. unfold one_of_kinds, is in *. rewrite Ht in Hu. cbn in Hu. intuition discriminate.
    - cbn [app] in E. injection E as -> ->. unfold is in Ht. rewrite Ht in Hu. destruct Hu as [Hu|[]]; discriminate Hu. }
  inversion H as [t0 w0 l s Ht0 Hw Hs E|t0 w0 l a v rl b Ht0 Hw Ha Hr Hb E|wa ats wm ab fi vis st x w0 l s doc Ha [Hm _] Hx Hc Hs E|
    wa ats wm ab fi vis st x wr rf i w0 nn doc Ha [Hm _] Hx Hr Hi Hsg E|wa ats wm ab fi vis st wt ty w0 l s doc Ha [Hm _] H4 Hty Hpt Hp Hs E]; subst.
  - eapply (t_conseq _ _ _ (eq (NUseTraitStatement t (map NUseTrait l)))); [|now intros ? <-].
    tk. eapply (t_all _ _ _ _ _ (eq (map NUseTrait l))); [|cbn beta; intros ? <-; now apply t_ret].
    eapply (t_bind _ _ _ _ w0 [s] (eq (inr l))); [|cbn beta; intros ? <-; cbn beta iota; tk; now apply t_ret].
    apply t_loop. enough (X : forall acc, ltakes (fun n type_refs =>
       b <- next_token_one_of [TSemicolon] ;;
       if b then break (inr type_refs)
       else
         t <- non_empty_type_ref n ;;
         b <- next_token_one_of [TOpenCurly] ;;
         if b then (g <- trait_usage_alteration_group n (type_refs ++ [t]) ;; break (inl [g]))
         else
           c <- consume_or_ignore TComma ;;
           match c with
           | Some _ => continue (type_refs ++ [t])
           | None => break (inr (type_refs ++ [t]))
           end) acc w0 (eq (inr (acc ++ l) : list Node + list Node)) ([s] ++ r)) by exact (X []).
    clear H HM. induction Hw as [w0 Hw|w0 c v l Hw Hc Hv IH]; intros acc.
    + apply l_break. no. eapply t_all; [apply r_type_ref; [exact Hw|look_]|]. cbn beta. intros ? <-. no. no. apply t_break. eauto.
    + replace (w0 ++ c :: v) with ((w0 ++ [c]) ++ v) by now rewrite <- app_assoc.
      eapply (l_more _ _ _ _ _ _ (eq (acc ++ [named w0]))).
      * no. eapply t_bind; [apply r_type_ref; [exact Hw|look_]|]. cbn beta. intros ? <-. no. tk. apply t_continue. eauto.
      * intros ? <-. eapply l_conseq; [apply IH|]. intros ? <-. now rewrite <- app_assoc.
  - eapply (t_conseq _ _ _ (eq (NUseTraitStatement t [NUseTraitAlterationBlock l a rl b]))); [|now intros ? <-].
    tk. eapply (t_all _ _ _ _ _ (eq [NUseTraitAlterationBlock l a rl b])); [|cbn beta; intros ? <-; now apply t_ret].
    eapply (t_all _ _ _ _ _ (eq (inl [NUseTraitAlterationBlock l a rl b]))); [|cbn beta; intros ? <-; cbn beta iota; now apply t_ret].
    apply t_loop. enough (X : forall acc, ltakes (fun n type_refs =>
       b <- next_token_one_of [TSemicolon] ;;
       if b then break (inr type_refs)
       else
         t <- non_empty_type_ref n ;;
         b <- next_token_one_of [TOpenCurly] ;;
         if b then (g <- trait_usage_alteration_group n (type_refs ++ [t]) ;; break (inl [g]))
         else
           c <- consume_or_ignore TComma ;;
           match c with
           | Some _ => continue (type_refs ++ [t])
           | None => break (inr (type_refs ++ [t]))
           end) acc (w0 ++ a :: v ++ [b]) (eq (inl [NUseTraitAlterationBlock (acc ++ l) a rl b] : list Node + list Node)) r) by exact (X []).
    clear H HM. induction Hw as [w0 Hw|w0 c v0 l Hw Hc Hv IH]; intros acc.
    + apply l_break. no. eapply t_bind; [apply r_type_ref; [exact Hw|look_]|]. cbn beta. intros ? <-. yes.
      eapply t_all; [apply r_rules; eassumption|]. cbn beta. intros ? <-. apply t_break. eauto.
    + replace ((w0 ++ c :: v0) ++ a :: v ++ [b]) with ((w0 ++ [c]) ++ v0 ++ a :: v ++ [b]) by now rewrite <- !app_assoc.
      eapply (l_more _ _ _ _ _ _ (eq (acc ++ [named w0]))).
      * no. eapply t_bind; [apply r_type_ref; [exact Hw|look_]|]. cbn beta. intros ? <-. no. tk. apply t_continue. eauto.
      * intros ? <-. eapply l_conseq; [apply IH|]. intros ? <-. now rewrite <- app_assoc.
  - exfalso. eapply HM; [symmetry; exact E|eassumption|eassumption|]. unfold is in *. congruence.
  - exfalso. eapply HM; [symmetry; exact E|eassumption|eassumption|]. unfold is in *. congruence.
  - exfalso. destruct wm as [|x wm]; [contradiction|].
    apply (HM x (wm ++ wt ++ w0 ++ [s]) wa ats [] (eq_sym E) Ha (Forall_nil _)).
    pose proof (Forall_inv Hm) as Hu. unfold one_of_kinds, is in *. intros X. rewrite X in Hu. cbn in Hu. intuition discriminate.
Qed.

(** * Modifiers *)

Lemma modifier_step : forall l w r, existsb (fun k => negb (existsb (tt_eqb k) modifier_kinds)) l = false ->
  Forall (one_of_kinds modifier_kinds) w -> look modifier_kinds r = false ->
  exists w1 w2 o, w = w1 ++ w2 /\ maybe_of l w1 o /\ (o = None -> look l w = false) /\
    takes (fun _ => consume_one_of_or_ignore l) w1 (eq o) (w2 ++ r).
Proof.
  intros l w r Hl Hw Hr. destruct (look l w) eqn:E.
  - destruct w as [|t w]; [discriminate E|]. cbn [look] in E.
    assert (Ht : one_of_kinds l t).
    { unfold one_of in E. apply existsb_exists in E as (k & Hk & E). apply tt_eqb_eq in E. subst k. exact Hk. }
    exists [t], w, (Some t). split; [reflexivity|]. split; [right; eauto|]. split; [discriminate|]. now apply t_choose_yes.
  - exists [], w, None. split; [reflexivity|]. split; [now left|]. split; [reflexivity|]. apply t_choose_no.
    destruct w as [|t w]; [|exact E]. cbn [app]. destruct r as [|u r]; [reflexivity|]. cbn [look] in *. unfold one_of in *.
    apply not_true_iff_false. intros X. apply not_true_iff_false in Hr. apply Hr. apply existsb_exists in X as (k & Hk & X).
    apply not_true_iff_false in Hl. apply tt_eqb_eq in X. subst k.
    destruct (existsb (tt_eqb (t_type u)) modifier_kinds) eqn:Y.
    + apply existsb_exists in Y as (y & Hy & Y). apply existsb_exists. exists y. split; [exact Hy|]. apply tt_eqb_eq in Y. subst y. apply tt_eqb_eq. reflexivity.
    + exfalso. apply Hl. apply existsb_exists. exists (t_type u). split; [exact Hk|]. now rewrite Y.
Qed.
Lemma choose_one : forall k s, consume_one_of_or_ignore [k] s = consume_or_ignore k s.
Proof.
  intros k s. unfold consume_one_of_or_ignore, consume_or_ignore, bind. destruct (peek s) as [[t|] s1|e s1| |]; try reflexivity.
  unfold one_of. cbn [existsb]. rewrite orb_false_r. unfold tt_eqb. rewrite N.eqb_sym. reflexivity.
Qed.
Lemma t_choose_one : forall k w T r, takes (fun _ => consume_one_of_or_ignore [k]) w T r -> takes (fun _ => consume_or_ignore k) w T r.
Proof.
  intros k w T r H s Hs. destruct (H s Hs) as (a & s' & [m G] & R). exists a, s'. split; [|exact R]. exists m. intros n Hn.
  rewrite <- choose_one. exact (G n Hn).
Qed.

Lemma maybe_look : forall l l' w o v, maybe_of l w o -> existsb (fun k => existsb (tt_eqb k) l') l = false ->
  look l' v = false -> look l' (w ++ v) = false.
Proof.
  intros l l' w o v [[-> _]|(t & -> & _ & Ht)] Hl Hv; [exact Hv|]. cbn [app look]. apply not_true_iff_false. intros X.
  apply not_true_iff_false in Hl. apply Hl. apply existsb_exists. exists (t_type t). split; [exact Ht|].
  unfold one_of in X. apply existsb_exists in X as (y & Hy & X). apply tt_eqb_eq in X. subst y. apply existsb_exists.
  exists (t_type t). split; [exact Hy|]. apply tt_eqb_eq. reflexivity.
Qed.
Lemma greedy_same : forall l w o v a o' v', maybe_of l w o -> look l v = false -> maybe_of l a o' -> (o' = None -> look l (w ++ v) = false) ->
  w ++ v = a ++ v' -> w = a /\ o = o' /\ v = v'.
Proof.
  intros l w o v a o' v' [[-> ->]|(t & -> & -> & Ht)] Hv [[-> ->]|(u & -> & -> & Hu)] N E; cbn [app] in E.
  - auto.
  - subst v. cbn [look] in Hv. rewrite (one_of_kind _ _ Hu) in Hv. discriminate Hv.
  - specialize (N eq_refl). cbn [app look] in N. rewrite (one_of_kind _ _ Ht) in N. discriminate N.
  - injection E as -> ->. auto.
Qed.
Definition usual (w : list Token) (m : option Token * option Token * option Token * option Token) : Prop :=
  match m with (ab, fi, vis, st) => Usual w ab fi vis st end.
(** Modifiers in the usual order are read in one round. *)
Lemma usual_greedy : forall w m a1 a2 a3 a4 v1 v2 v3 v4 o1 o2 o3 o4, usual w m ->
  w = a1 ++ v1 -> maybe_of [TAbstract] a1 o1 -> (o1 = None -> look [TAbstract] w = false) ->
  v1 = a2 ++ v2 -> maybe_of [TFinal] a2 o2 -> (o2 = None -> look [TFinal] v1 = false) ->
  v2 = a3 ++ v3 -> maybe_of visibility_kinds a3 o3 -> (o3 = None -> look visibility_kinds v2 = false) ->
  v3 = a4 ++ v4 -> maybe_of [TStatic] a4 o4 -> (o4 = None -> look [TStatic] v3 = false) ->
  v4 = [] /\ m = (o1, o2, o3, o4).
Proof.
  intros w [[[ab fi] vis] st] a1 a2 a3 a4 v1 v2 v3 v4 o1 o2 o3 o4 (w1 & w2 & w3 & w4 & -> & U1 & U2 & U3 & U4) E1 M1 N1 E2 M2 N2 E3 M3 N3 E4 M4 N4.
  assert (L1 : look [TAbstract] (w2 ++ w3 ++ w4) = false).
  { eapply maybe_look; [exact U2|reflexivity|]. eapply maybe_look; [exact U3|reflexivity|]. rewrite <- (app_nil_r w4). eapply maybe_look; [exact U4|reflexivity|reflexivity]. }
  destruct (greedy_same _ _ _ _ _ _ _ U1 L1 M1 N1 E1) as (<- & <- & <-).
  assert (L2 : look [TFinal] (w3 ++ w4) = false).
  { eapply maybe_look; [exact U3|reflexivity|]. rewrite <- (app_nil_r w4). eapply maybe_look; [exact U4|reflexivity|reflexivity]. }
  destruct (greedy_same _ _ _ _ _ _ _ U2 L2 M2 N2 E2) as (<- & <- & <-).
  assert (L3 : look visibility_kinds w4 = false).
  { rewrite <- (app_nil_r w4). eapply maybe_look; [exact U4|reflexivity|reflexivity]. }
  destruct (greedy_same _ _ _ _ _ _ _ U3 L3 M3 N3 E3) as (<- & <- & <-).
  rewrite <- (app_nil_r w4) in E4, N4. destruct (greedy_same _ _ _ [] _ _ _ U4 eq_refl M4 N4 E4) as (<- & <- & <-). auto.
Qed.

(** the modifiers that were read last, up to where the order starts again; all
    of them if they are in the usual order *)
Definition last_group (w : list Token) (m : option Token * option Token * option Token * option Token) : Prop :=
  (exists v u, w = v ++ u /\ usual u m) /\ (forall m', usual w m' -> m = m').

Lemma r_modifiers : forall w r, Forall (one_of_kinds modifier_kinds) w -> look modifier_kinds r = false ->
  takes (fun n => modifiers n) w (last_group w) r.
Proof.
  intros w r Hw Hr. unfold modifiers. apply t_loop.
  enough (X : forall m, ltakes (fun (_ : nat) m =>
    b <- next_token_one_of [TAbstract; TFinal; TPublic; TVar; TPrivate; TProtected; TStatic] ;;
    if b then
      is_abstract <- consume_or_ignore TAbstract ;;
      is_final <- consume_or_ignore TFinal ;;
      visibility <- consume_one_of_or_ignore [TPublic; TVar; TPrivate; TProtected] ;;
      is_static <- consume_or_ignore TStatic ;;
      continue (is_abstract, is_final, visibility, is_static)
    else break m) m w (fun m' => (w = [] /\ m' = m) \/ (w <> [] /\ last_group w m')) r).
  { eapply l_conseq; [apply X|]. intros m' [[-> ->]|[_ H]]; [|exact H].
    assert (U : usual [] (None, None, None, None)) by (exists [], [], [], []; repeat split; now left).
    split; [exists [], []; split; [reflexivity|exact U]|]. intros m' U'.
    destruct (usual_greedy [] m' [] [] [] [] [] [] [] [] None None None None U') as [_ ->]; auto; now left. }
  remember (List.length w) as k eqn:Ek. revert w Ek Hw. induction k as [k IH] using lt_wf_ind. intros w -> Hw m.
  destruct w as [|t w].
  - apply l_break. eapply t_nil; [apply t_one_of_no; exact Hr|]. cbn beta iota. apply t_break. eauto.
  - assert (L : look [TAbstract; TFinal; TPublic; TVar; TPrivate; TProtected; TStatic] ((t :: w) ++ r) = true).
    { cbn [app look]. apply one_of_kind. exact (Forall_inv Hw). }
    destruct (modifier_step [TAbstract] (t :: w) r eq_refl Hw Hr) as (a1 & v1 & o1 & E1 & L1 & N1 & T1).
    assert (Hv1 : Forall (one_of_kinds modifier_kinds) v1) by (rewrite E1 in Hw; now apply Forall_app in Hw).
    destruct (modifier_step [TFinal] v1 r eq_refl Hv1 Hr) as (a2 & v2 & o2 & E2 & L2 & N2 & T2).
    assert (Hv2 : Forall (one_of_kinds modifier_kinds) v2) by (rewrite E2 in Hv1; now apply Forall_app in Hv1).
    destruct (modifier_step visibility_kinds v2 r eq_refl Hv2 Hr) as (a3 & v3 & o3 & E3 & L3 & N3 & T3).
    assert (Hv3 : Forall (one_of_kinds modifier_kinds) v3) by (rewrite E3 in Hv2; now apply Forall_app in Hv2).
    destruct (modifier_step [TStatic] v3 r eq_refl Hv3 Hr) as (a4 & v4 & o4 & E4 & L4 & N4 & T4).
    assert (Hv4 : Forall (one_of_kinds modifier_kinds) v4) by (rewrite E4 in Hv3; now apply Forall_app in Hv3).
    assert (E : t :: w = (a1 ++ a2 ++ a3 ++ a4) ++ v4) by (rewrite E1, E2, E3, E4, !app_assoc; reflexivity).
    assert (U : usual (a1 ++ a2 ++ a3 ++ a4) (o1, o2, o3, o4)) by (exists a1, a2, a3, a4; auto).
    assert (G : forall m', usual (t :: w) m' -> v4 = [] /\ m' = (o1, o2, o3, o4)).
    { intros m' U'. exact (usual_greedy _ _ _ _ _ _ _ _ _ _ _ _ _ _ U' E1 L1 N1 E2 L2 N2 E3 L3 N3 E4 L4 N4). }
    assert (Hlt : (List.length v4 < List.length (t :: w))%nat).
    { rewrite E. rewrite !app_length. enough ((0 < List.length a1 + List.length a2 + List.length a3 + List.length a4)%nat) by lia.
      destruct L1 as [[-> Q1]|(x & -> & _)]; [|cbn; lia]. destruct L2 as [[-> Q2]|(x & -> & _)]; [|cbn; lia].
      destruct L3 as [[-> Q3]|(x & -> & _)]; [|cbn; lia]. destruct L4 as [[-> Q4]|(x & -> & _)]; [|cbn; lia].
      exfalso. clear - N1 N2 N3 N4 Q1 Q2 Q3 Q4 E1 E2 E3 E4 Hw. cbn [app] in *. subst v3 v2 v1 v4.
      specialize (N1 Q1). specialize (N2 Q2). specialize (N3 Q3). specialize (N4 Q4).
      pose proof (Forall_inv Hw) as Ht. unfold one_of_kinds in Ht. cbn [look] in *. unfold one_of in *. cbn [existsb In modifier_kinds visibility_kinds] in *.
      repeat rewrite orb_false_r in *.
      repeat (destruct Ht as [Ht|Ht]; [rewrite <- Ht in *; cbn in N1, N2, N3, N4; discriminate|]). destruct Ht. }
    assert (NE : t :: w <> []) by discriminate. revert NE G. rewrite E in *. intros NE G.
    eapply (l_more _ _ _ _ _ _ (eq (o1, o2, o3, o4))).
    + eapply t_nil; [apply t_one_of_yes; rewrite (app_assoc _ v4 r); exact L|]. cbn beta iota.
      eapply t_bind; [apply t_choose_one; eapply t_rest; [exact T1|]|].
      { rewrite E2, E3, E4. now rewrite <- !app_assoc. }
      cbn beta. intros ? <-. eapply t_bind; [apply t_choose_one; eapply t_rest; [exact T2|]|].
      { rewrite E3, E4. now rewrite <- !app_assoc. }
      cbn beta. intros ? <-. eapply t_bind; [eapply t_rest; [exact T3|]|].
      { rewrite E4. now rewrite <- !app_assoc. }
      cbn beta. intros ? <-. eapply t_all; [apply t_choose_one; exact T4|]. cbn beta. intros ? <-. apply t_continue. eexists. split; reflexivity.
    + intros m' <-. eapply l_conseq; [apply (IH (List.length v4) Hlt v4 eq_refl Hv4)|]. cbn beta.
      intros m' [[-> ->]|[NE4 [(v & u & Ev & Uu) _]]]; right; (split; [exact NE|]).
      * rewrite app_nil_r in *. split; [exists [], (a1 ++ a2 ++ a3 ++ a4); auto|]. intros m'' U''. symmetry. now apply G.
      * split; [exists ((a1 ++ a2 ++ a3 ++ a4) ++ v), u; split; [now rewrite Ev, !app_assoc|exact Uu]|].
        intros m'' U''. destruct (G _ U'') as [Z _]. contradiction.
Qed.

Lemma group_modifiers : forall w m, Forall (one_of_kinds modifier_kinds) w -> last_group w m ->
  match m with (ab, fi, vis, st) => Modifiers w ab fi vis st end.
Proof. intros w [[[ab fi] vis] st] Hw [H1 H2]. split; [exact Hw|]. split; [exact H1|]. intros ab' fi' vis' st' U. now apply H2. Qed.

(** * Members *)

Section Members.
Context `{RT : Runtime}.
Variable k : nat.
Hypothesis HE : forall w e t r, (List.length w < k)%nat -> Expr w e -> ends_expression t -> (is TDoubleArrow t -> no_yield w) ->
  takes (fun n => r_expr (run n) 0) w (Expr w) (t :: r).
Hypothesis HB : forall w b r, (List.length w < k)%nat -> Block w b -> takes (fun n => r_block (run n)) w (Block w) r.

Ltac ex := first [eapply t_bind; [eapply HE; [len|eassumption|ends|arrow]|] | eapply t_all; [eapply HE; [len|eassumption|ends|arrow]|]];
  cbn beta; let e := fresh "e'" in let H := fresh "He'" in intros e H.

Lemma v_class_constants : forall vis w l, ClassConstants vis w l -> (List.length w < k)%nat -> forall s r, is TSemicolon s ->
  takes (fun n => ploop n (fun consts =>
        name <- consume_identifier ;;
        consume_or_ff_after TAssignment [TSemicolon] ;;;
        value <- r_expr (run n) 0 ;;
        c <- consume_or_ignore TComma ;;
        match c with
        | Some _ => continue (consts ++ [(NClassConstant vis name value)])
        | None => break (consts ++ [(NClassConstant vis name value)])
        end) []) w (ClassConstants vis w) (s :: r).
Proof.
  intros vis w l H Hk s r Hs. apply t_loop. accumulate. revert Hk.
  induction H as [vis i q w e Hi Hq He|vis i q w e c v l Hi Hq He Hc H IH]; intros Hk acc.
  - apply l_break. tk. tk. ex. no. done_. eexists. split; [reflexivity|]. eexists. split; [reflexivity|]. now constructor.
  - replace (i :: q :: w ++ c :: v) with ((i :: q :: w ++ [c]) ++ v) by (cbn; now rewrite <- app_assoc).
    eapply (l_more _ _ _ _ _ _ (fun x => exists e', x = acc ++ [NClassConstant vis i e'] /\ Expr w e')).
    + tk. tk. ex. tk. done_. eauto.
    + intros ? (e' & -> & He'). eapply l_conseq; [apply IH; len|]. cbn beta. intros ? (l' & -> & Hl').
      exists (NClassConstant vis i e' :: l'). rewrite <- app_assoc. split; [reflexivity|]. cbn. rewrite <- app_assoc. now apply Cc_more.
Qed.

Lemma v_properties : forall w l, Properties w l -> (List.length w < k)%nat -> forall s r, is TSemicolon s ->
  takes (fun n => ploop n (fun props =>
        name <- consume TVariable ;;
        b <- next_token_one_of [TAssignment] ;;
        value <- (if b then (next ;;; e <- r_expr (run n) 0 ;; ret (Some e)) else ret None) ;;
        b <- next_token_one_of [TComma] ;;
        if negb b then break (props ++ [(NProperty name value)]) else (next ;;; continue (props ++ [(NProperty name value)]))) [])
    w (Properties w) (s :: r).
Proof.
  intros w l H Hk s r Hs. apply t_loop. accumulate. revert Hk.
  assert (HI : forall w q e, Initial w q e -> (List.length w < k)%nat -> forall u x, is TComma u \/ is TSemicolon u ->
    takes (fun n => b <- next_token_one_of [TAssignment] ;;
        if b then (next ;;; e <- r_expr (run n) 0 ;; ret (Some e)) else ret None) w (fun e' => exists q', Initial w q' e') (u :: x)).
  { clear - HE. intros w q e H Hk u x Hu. destruct H as [|t w e Ht He].
    - eapply t_nil; [apply t_one_of_no; destruct Hu; lk|]. cbn beta iota. done_. exists None. constructor.
    - assert (Hends : ends_expression u) by (destruct Hu; ends). yes. tk. ex. done_. exists (Some t). now constructor. }
  assert (HB' : forall A B (m : nat -> P A) (f : nat -> A -> P B) (c : nat -> bool -> P A) w T r,
    takes (fun n => bind (bind (next_token_one_of [TAssignment]) (c n)) (f n)) w T r ->
    takes (fun n => b <- next_token_one_of [TAssignment] ;; bind (c n b) (f n)) w T r).
  { clear. intros A B m f c w T r H s Hs. destruct (H s Hs) as (a & s' & [k G] & R). exists a, s'. split; [|exact R]. exists k. intros n Hn.
    rewrite <- (G n Hn). unfold bind. destruct (next_token_one_of [TAssignment] s); reflexivity. }
  induction H as [v w q e Hv Hi|v w q e c u l Hv Hi Hc H IH]; intros Hk acc.
  - apply l_break. tk. apply (HB' _ _ (fun _ => ret None)
      (fun _ value => b <- next_token_one_of [TComma] ;;
        if negb b then break (acc ++ [(NProperty v value)]) else (next ;;; continue (acc ++ [(NProperty v value)])))
      (fun n b => if b then (next ;;; e <- r_expr (run n) 0 ;; ret (Some e)) else ret None)).
    eapply t_all; [eapply HI; [exact Hi|len|now right]|]. cbn beta. intros e' (q' & He'). no. cbn [negb]. done_.
    eexists. split; [reflexivity|]. eexists. split; [reflexivity|]. now apply (Py_one _ _ q').
  - replace (v :: w ++ c :: u) with ((v :: w ++ [c]) ++ u) by (cbn; now rewrite <- app_assoc).
    eapply (l_more _ _ _ _ _ _ (fun x => exists e' q', x = acc ++ [NProperty v e'] /\ Initial w q' e')).
    + tk. apply (HB' _ _ (fun _ => ret None)
      (fun _ value => b <- next_token_one_of [TComma] ;;
        if negb b then break (acc ++ [(NProperty v value)]) else (next ;;; continue (acc ++ [(NProperty v value)])))
      (fun n b => if b then (next ;;; e <- r_expr (run n) 0 ;; ret (Some e)) else ret None)).
      eapply t_bind; [eapply HI; [exact Hi|len|now left]|]. cbn beta. intros e' (q' & He'). yes. cbn [negb]. tk. done_. eauto 10.
    + intros ? (e' & q' & -> & He'). eapply l_conseq; [apply IH; len|]. cbn beta. intros ? (l' & -> & Hl').
      exists (NProperty v e' :: l'). rewrite <- app_assoc. split; [reflexivity|]. cbn. rewrite <- app_assoc. now apply (Py_more _ _ q').
Qed.

Lemma type_first : forall w n, Type_ w n -> headed (TQuestionMark :: TNamespaceSeparator :: words) w.
Proof. intros w n H. destruct (opt_type_head _ _ (OT_some _ _ H)) as [->|X]; [|exact X]. inversion H as [wq q w l Hq Hu E]. exfalso.
  destruct (union_first _ _ Hu) as (t & v & -> & _). destruct wq; discriminate E.
Qed.
Lemma properties_first : forall w l, Properties w l -> exists v x, w = v :: x /\ is TVariable v.
Proof. intros w l H. destruct H; eauto. Qed.

(** what comes in front of a member *)
Lemma member_start : forall wa ats wm v r l, Attributes wa ats -> Forall (one_of_kinds modifier_kinds) wm ->
  existsb (fun k => existsb (tt_eqb k) (TAttributeStart :: modifier_kinds)) l = false -> look l (v ++ r) = false ->
  look l ((wa ++ wm ++ v) ++ r) = false.
Proof.
  intros wa ats wm v r l Ha Hm Hl Hv. destruct (attributes_head _ _ Ha) as [->|h].
  - cbn [app]. destruct Hm as [|t wm Ht Hm]; [exact Hv|]. rewrite <- app_assoc.
    eapply (look_headed (TAttributeStart :: modifier_kinds)); [apply headed_cons; right; exact Ht|exact Hl].
  - rewrite <- app_assoc. eapply (look_headed (TAttributeStart :: modifier_kinds)); [|exact Hl]. eapply headed_more; [exact h|].
    intros y [<-|[]]. now left.
Qed.
Lemma v_member_start : forall wa ats wm v r, Attributes wa ats -> (List.length wa < k)%nat -> Forall (one_of_kinds modifier_kinds) wm ->
  look [TUse] ((wa ++ wm ++ v) ++ r) = false -> look (TAttributeStart :: modifier_kinds) (v ++ r) = false ->
  forall B (M : nat -> P B) (K : nat -> option Node -> list Node -> option Token * option Token * option Token * option Token -> P B) T,
  (forall doc ats' m, Attributes wa ats' -> last_group wm m -> takes (fun n => K n doc ats' m) v T r) ->
  takes (fun n => b <- next_token_one_of [TUse] ;;
    if b then M n else
    doc_comment <- consume_optional_doc_comment ;;
    attributes <- attributes_block (run n) n ;;
    doc_comment <- match doc_comment with
                   | Some _ => ret doc_comment
                   | None => consume_optional_doc_comment
                   end ;;
    m <- modifiers n ;;
    K n doc_comment attributes m) (wa ++ wm ++ v) T r.
Proof.
  intros wa ats wm v r Ha Hk Hm V1 Hv B M K T HK.
  destruct (look_cons _ _ _ Hv) as [V3 V4].
  eapply t_nil; [apply t_one_of_no; exact V1|]. cbn beta iota.
  eapply t_nil_any; [apply t_doc|]. cbn beta. intros d1 _.
  eapply t_bind; [eapply v_attributes; [exact HE|exact Ha|exact Hk|]|].
  { rewrite <- app_assoc. destruct Hm as [|t wm Ht Hm]; [exact V3|]. cbn [app].
    eapply (look_headed modifier_kinds [TAttributeStart] [t]); [now apply headed_cons|reflexivity]. }
  cbn beta. intros ats' Ha'. eapply (t_nil_any _ _ _ _ _ (fun _ => True)).
  { destruct d1; [now apply t_ret|apply t_doc]. }
  cbn beta. intros d2 _. eapply t_bind; [apply r_modifiers; [exact Hm|exact V4]|]. cbn beta. intros m Hm'. now apply HK.
Qed.

Lemma v_member : forall w n, Member w n -> (List.length w < k)%nat -> forall r,
  takes (fun n => class_block_statement (run n) n) w (Member w) r.
Proof.
  intros w n H Hk r. unfold class_block_statement. cbv zeta.
  inversion H as [t0 w0 l s Ht0 Hw Hs E|t0 w0 l a v rl b Ht0 Hw Ha Hr Hb E|wa ats wm ab fi vis st x w0 l s doc Ha [Hm _] Hx Hc Hs E|
    wa ats wm ab fi vis st x wr rf i w0 nn doc Ha [Hm _] Hx Hr Hi Hsg E|wa ats wm ab fi vis st wt ty w0 l s doc Ha [Hm _] H4 Hty Hpt Hp Hs E]; subst.
  - yes. eapply r_use_trait; eassumption.
  - yes. eapply r_use_trait; eassumption.
  - eapply v_member_start; [exact Ha|len|exact Hm|eapply member_start; [exact Ha|exact Hm|reflexivity|look_]|look_|]. intros d ats' [[[ab' fi'] vis'] st'] Ha' K. tk.
    assert (Hc' : ClassConstants vis' w0 (map (fun c => match c with NClassConstant _ i e => NClassConstant vis' i e | _ => c end) l)).
    { clear - Hc. induction Hc; cbn [map]; now constructor. }
    eapply t_bind; [eapply v_class_constants; [exact Hc'|len|exact Hs]|]. cbn beta. intros l' Hl'. tk. done_.
    eapply M_constants; [exact Ha'|now apply (group_modifiers _ (ab', fi', vis', st'))|eassumption..].
  - eapply v_member_start; [exact Ha|len|exact Hm|eapply member_start; [exact Ha|exact Hm|reflexivity|look_]|look_|]. intros d ats' [[[ab' fi'] vis'] st'] Ha' K. no. tk.
    eapply t_bind; [apply t_maybe; [exact Hr|look_]|]. cbn beta. intros ? <-. tk.
    eapply t_all; [eapply v_signature; [exact HE|exact HB|exact Hsg|len]|]. cbn beta. intros n' Hn'. done_.
    apply M_method; [exact Ha'|now apply (group_modifiers _ (ab', fi', vis', st'))|assumption..].
  - destruct (properties_first _ _ Hp) as (v & x & -> & Hv).
    assert (HT : look (TAttributeStart :: modifier_kinds) ((wt ++ (v :: x) ++ [s]) ++ r) = false /\
                 look [TConst] ((wt ++ (v :: x) ++ [s]) ++ r) = false /\ look [TFunction] ((wt ++ (v :: x) ++ [s]) ++ r) = false).
    { destruct Hty as [|wt ty Hty]; [cbn [app]; splits; look_|].
      destruct (type_first _ _ Hty) as (t & y & -> & Ht). inversion Hpt as [|t0 w1 Hn]; subst.
      cbn [app]. unfold one_of_kinds in Hn. cbn [look]. splits; apply not_true_iff_false; intros X; unfold one_of in X;
        apply existsb_exists in X as (q & Hq & X); apply tt_eqb_eq in X; subst q.
      - cbn [In] in Hq. destruct Hq as [Hq|Hq].
        + rewrite <- Hq in Ht. cbn in Ht. intuition discriminate.
        + apply Hn. right. right. exact Hq.
      - apply Hn. left. destruct Hq as [Hq|[]]. exact Hq.
      - apply Hn. right. left. destruct Hq as [Hq|[]]. exact Hq. }
    destruct HT as (T1 & T2 & T3).
    assert (T0 : look [TUse] ((wa ++ wm ++ wt ++ (v :: x) ++ [s]) ++ r) = false).
    { destruct (attributes_head _ _ Ha) as [->|h].
      - cbn [app]. destruct Hm as [|t wm Ht Hm]; [contradiction|]. eapply (look_headed modifier_kinds); [now apply headed_cons|reflexivity].
      - rewrite <- app_assoc. eapply look_headed; [exact h|reflexivity]. }
    eapply v_member_start; [exact Ha|len|exact Hm|exact T0|exact T1|]. intros d ats' [[[ab' fi'] vis'] st'] Ha' K.
    eapply t_nil; [apply t_ignore_no; exact T2|]. cbn beta iota. eapply t_nil; [apply t_ignore_no; exact T3|]. cbn beta iota.
    eapply t_nil; [apply t_one_of|]. cbn beta.
    eapply (t_bind _ _ _ _ wt _ (eq ty)).
    + destruct Hty as [|wt ty Hty].
      * cbn [app look]. unfold one_of. cbn [existsb]. rewrite Hv. cbn [negb tt_eqb orb]. change (tt_eqb TVariable TVariable) with true.
        cbn [orb negb]. now apply t_ret.
      * assert (L : look [TVariable] ((wt ++ (v :: x) ++ [s]) ++ r) = false).
        { rewrite <- app_assoc. eapply look_headed; [eapply type_first; exact Hty|reflexivity]. }
        rewrite L. cbn [negb]. eapply t_all; [apply r_type; [exact Hty|look_]|]. cbn beta. intros ? <-. now apply t_ret.
    + cbn beta. intros ? <-. eapply t_bind; [eapply v_properties; [exact Hp|len|exact Hs]|]. cbn beta. intros l' Hl'. tk. done_.
      eapply M_properties; [exact Ha'|now apply (group_modifiers _ (ab', fi', vis', st'))|eassumption..].
Qed.
(** a method, with what is recorded of its modifiers *)
Lemma v_method : forall wm t wr rf i w n r, (List.length w < k)%nat -> Forall (one_of_kinds modifier_kinds) wm ->
  is TFunction t -> maybe TBinaryAnd wr rf -> word i -> Signature w n ->
  takes (fun n => class_block_statement (run n) n) (wm ++ t :: wr ++ i :: w)
    (fun x => exists ab fi vis st doc n', last_group wm (ab, fi, vis, st) /\ Signature w n' /\
      x = NMethodDefinitionStatement t fi rf i vis ab n' st doc []) r.
Proof.
  intros wm t wr rf i w n r Hk Hm Ht Hr Hi Hsg. unfold class_block_statement. cbv zeta.
  eapply (v_member_start [] [] wm); [apply At_none|cbn; lia|exact Hm|eapply (member_start []); [apply At_none|exact Hm|reflexivity|look_]|look_|].
  intros d ats' [[[ab' fi'] vis'] st'] Ha' K. assert (ats' = []) by (inversion Ha'; reflexivity). subst ats'. no. tk.
  eapply t_bind; [apply t_maybe; [exact Hr|look_]|]. cbn beta. intros ? <-. tk.
  eapply t_all; [eapply v_signature; [exact HE|exact HB|exact Hsg|len]|]. cbn beta. intros n' Hn'. done_.
  eexists _, _, _, _, _, _. splits; [exact K|exact Hn'|reflexivity].
Qed.
Lemma member_head : forall w n, Member w n -> headed (TUse :: TAttributeStart :: TConst :: TFunction :: modifier_kinds) w.
Proof.
  assert (HA : forall wa ats wm x, Attributes wa ats -> Forall (one_of_kinds modifier_kinds) wm ->
    (wm <> [] \/ headed [TConst; TFunction] x) -> headed (TUse :: TAttributeStart :: TConst :: TFunction :: modifier_kinds) (wa ++ wm ++ x)).
  { clear. intros wa ats wm x Ha Hm Hx. destruct (attributes_head _ _ Ha) as [->|h].
    - cbn [app]. destruct Hm as [|t wm Ht Hm].
      + destruct Hx as [Hx|Hx]; [contradiction|]. eapply headed_more; [exact Hx|]. intros y [<-|[<-|[]]]; cbn; tauto.
      + apply headed_app, headed_cons. right; right; right; right. exact Ht.
    - apply headed_app. eapply headed_more; [exact h|]. intros y [<-|[]]. cbn; tauto. }
  intros w n H. destruct H; try hd.
  - eapply HA; [eassumption|apply H0|]. right. hd.
  - eapply HA; [eassumption|apply H0|]. right. hd.
  - eapply HA; [eassumption|apply H0|]. now left.
Qed.

Lemma v_class_body : forall w n, ClassBody w n -> (List.length w < k)%nat -> forall r,
  takes (fun n => class_block (run n) n) w (ClassBody w) r.
Proof.
  intros w n H Hk r. destruct H as [a w l b Ha H Hb]. unfold class_block. cbv zeta. tk.
  eapply (t_bind _ _ _ _ w [b] (Members w)); [|cbn beta; intros l' Hl'; tk; done_; now constructor].
  apply t_loop. accumulate. assert (Hk' : (List.length w < k)%nat) by len. clear Hk. revert Hk'.
  induction H as [|w n v l Hw H IH]; intros Hk acc.
  - apply l_break. yes. done_. eexists. split; [reflexivity|]. exists []. rewrite app_nil_r. split; [reflexivity|constructor].
  - eapply (l_more _ _ _ _ _ _ (fun x => exists n', x = acc ++ [n'] /\ Member w n')).
    + eapply t_nil; [apply t_one_of_no; eapply look_headed; [eapply member_head; exact Hw|reflexivity]|]. cbn beta iota.
      eapply t_all; [apply t_catch; eapply v_member; [exact Hw|len]|]. cbn beta. intros ? (n' & -> & Hn'). cbn beta iota.
      eapply t_nil; [apply t_peek|]. cbn beta. cbn [app]. destruct (v ++ b :: r) as [|y z] eqn:E; [now destruct v|]. done_. eauto.
    + intros ? (n' & -> & Hn'). eapply l_conseq; [apply IH; len|]. cbn beta. intros ? (l' & -> & Hl').
      exists (n' :: l'). rewrite <- app_assoc. split; [reflexivity|]. now constructor.
Qed.
Lemma class_body_head : forall w n, ClassBody w n -> exists a v, w = a :: v /\ is TOpenCurly a.
Proof. intros w n H. destruct H; eauto. Qed.

(** the rest of a class behind its name or arguments *)
Lemma v_class_rest : forall we ex wi im wb body r B (K : nat -> option Node -> option (list Node) -> Node -> P B) T,
  Extends we ex -> NameClause TImplements wi im -> ClassBody wb body -> (List.length wb < k)%nat ->
  (forall body', ClassBody wb body' -> takes (fun n => K n ex im body') [] T r) ->
  takes (fun n =>
    e <- consume_or_ignore TExtends ;;
    extends <- match e with
               | Some _ => t <- non_empty_type_ref n ;; ret (Some t)
               | None => ret None
               end ;;
    i <- consume_or_ignore TImplements ;;
    implements <- match i with
                  | Some _ => l <- identifier_list n ;; ret (Some l)
                  | None => ret None
                  end ;;
    body <- class_block (run n) n ;;
    K n extends implements body) (we ++ wi ++ wb) T r.
Proof.
  intros we ex wi im wb body r B K T He Hi Hb Hk HK.
  assert (L1 : look [TImplements; TNamespaceSeparator; TComma] (wb ++ r) = false).
  { destruct (class_body_head _ _ Hb) as (a & v & -> & Ha). look_. }
  assert (L2 : look [TExtends; TNamespaceSeparator] ((wi ++ wb) ++ r) = false).
  { destruct (class_body_head _ _ Hb) as (a & v & -> & Ha). destruct Hi; look_. }
  pose proof (r_extends we ex ((wi ++ wb) ++ r) He L2) as X1. pose proof (r_name_clause TImplements wi im (wb ++ r) Hi L1) as X2.
  assert (X : takes (fun n => bind (e <- consume_or_ignore TExtends ;;
      match e with
      | Some _ => t <- non_empty_type_ref n ;; ret (Some t)
      | None => ret None
      end) (fun extends => bind (i <- consume_or_ignore TImplements ;;
      match i with
      | Some _ => l <- identifier_list n ;; ret (Some l)
      | None => ret None
      end) (fun implements => body <- class_block (run n) n ;; K n extends implements body))) (we ++ wi ++ wb) T r).
  { eapply t_bind; [exact X1|]. cbn beta. intros ? <-. eapply t_bind; [exact X2|]. cbn beta. intros ? <-.
    eapply t_all; [eapply v_class_body; [exact Hb|exact Hk]|]. exact HK. }
  intros s Hs. destruct (X s Hs) as (y & s' & [m G] & R). exists y, s'. split; [|exact R]. exists m. intros n Hn.
  rewrite <- (G n Hn). unfold bind. destruct (consume_or_ignore TExtends s) as [c1 s1|e1 s1| |]; try reflexivity.
  match goal with |- match ?X with _ => _ end = _ => destruct X as [c2 s2|e2 s2| |]; try reflexivity end.
  destruct (consume_or_ignore TImplements s2) as [c3 s3|e3 s3| |]; reflexivity.
Qed.

Lemma v_anonymous_class : forall t wp p we ex wi im wb body ats r,
  is TClass t -> ClassArguments wp p -> Extends we ex -> NameClause TImplements wi im -> ClassBody wb body ->
  (List.length (t :: wp ++ we ++ wi ++ wb) <= k)%nat ->
  takes (fun n => anonymous_class (run n) n ats) (t :: wp ++ we ++ wi ++ wb)
    (fun x => exists p' body', x = NClass t p' ex im body' ats /\ ClassArguments wp p' /\ ClassBody wb body') r.
Proof.
  intros t wp p we ex wi im wb body ats r Ht Hp He Hi Hb Hk. unfold anonymous_class. tk.
  assert (L2 : look [TOpenParenthesis] ((we ++ wi ++ wb) ++ r) = false).
  { destruct (class_body_head _ _ Hb) as (a & v & -> & Ha). destruct He; [|look_]. destruct Hi; look_. }
  destruct Hp as [|a w l b Ha Hl Hb'].
  - cbn [app] in *. eapply t_nil; [apply t_one_of_no; exact L2|]. cbn beta iota. eapply t_nil; [apply t_ret; reflexivity|]. cbn beta.
    eapply v_class_rest; [exact He|exact Hi|exact Hb|len|]. intros body' Hb''. done_. eexists _, _. splits; [reflexivity|constructor|exact Hb''].
  - yes. eapply (t_bind _ _ _ _ (a :: w ++ [b]) _ (fun x => exists l', x = Some l' /\ Values w l')).
    + tk. eapply t_bind; [eapply v_values; [exact HE|exact Hl|len|exact Hb']|]. cbn beta. intros l' Hl'. tk. done_. eauto.
    + cbn beta. intros ? (l' & -> & Hl'). eapply v_class_rest; [exact He|exact Hi|exact Hb|len|]. intros body' Hb''. done_.
      eexists _, _. splits; [reflexivity|now constructor|exact Hb''].
Qed.
End Members.
