(** Names, types, variables and heads: the parts of the grammar of
    SpecGrammar.v in which no expressions occur. *)

From Verif Require Import Base Token Node DocBlock Parser TokenFacts ParserBase SpecCalm SpecExpr SpecGrammar PrattFacts GrammarBase.

Lemma t_one_of_no : forall l r, look l r = false -> takes (fun _ => next_token_one_of l) [] (eq false) r.
Proof. intros l r H. rewrite <- H. apply t_one_of. Qed.
Lemma t_one_of_yes : forall l r, look l r = true -> takes (fun _ => next_token_one_of l) [] (eq true) r.
Proof. intros l r H. rewrite <- H. apply t_one_of. Qed.
Lemma t_done : forall A (m : nat -> P A) w T r, takes m (w ++ []) T r -> takes m w T r.
Proof. intros A m w T r H. now rewrite app_nil_r in H. Qed.
Lemma t_eq : forall A (m : nat -> P A) w w' T r, takes m w T r -> w = w' -> takes m w' T r.
Proof. now intros A m w w' T r H <-. Qed.
Lemma t_rest : forall A (m : nat -> P A) w T r r', takes m w T r -> r = r' -> takes m w T r'.
Proof. now intros A m w T r r' H <-. Qed.

(** the answer of a loop that adds to a list *)
Ltac accumulate :=
  match goal with |- ltakes ?body [] ?w ?T ?r =>
    let X := fresh in
    enough (X : forall acc, ltakes body acc w (fun l => exists l', l = acc ++ l' /\ T l') r)
      by (eapply l_conseq; [exact (X [])|]; cbn beta; intros ? (? & -> & ?); assumption)
  end.

(** * First tokens *)

Lemma word_type : forall w, Qualified w -> exists t v, w = t :: v /\ (is TNamespaceSeparator t \/ word t).
Proof.
  intros w [p H|s p Hs H]; [|eauto]. destruct H; eauto.
Qed.
(** [look] on a list that starts with a word *)
Lemma look_word : forall l t r, word t -> existsb (fun k => existsb (tt_eqb k) words) l = false -> look l (t :: r) = false.
Proof.
  intros l t r Hw Hl. cbn [look]. destruct (one_of l t) eqn:E; [|reflexivity]. exfalso.
  apply not_true_iff_false in Hl. apply Hl. apply existsb_exists. unfold one_of in E. apply existsb_exists in E as (k & Hk & E).
  exists k. split; [exact Hk|]. apply existsb_exists. exists (t_type t). split; [exact Hw|exact E].
Qed.
Lemma look_qualified : forall l w r, Qualified w ->
  existsb (fun k => existsb (tt_eqb k) (TNamespaceSeparator :: words)) l = false -> look l (w ++ r) = false.
Proof.
  intros l w r Hw Hl. destruct (word_type w Hw) as (t & v & -> & H). cbn [app look].
  destruct (one_of l t) eqn:E; [|reflexivity]. exfalso.
  apply not_true_iff_false in Hl. apply Hl. apply existsb_exists. unfold one_of in E. apply existsb_exists in E as (k & Hk & E).
  exists k. split; [exact Hk|]. apply existsb_exists. exists (t_type t). split; [|exact E].
  destruct H as [H|H]; [left; now symmetry|right; exact H].
Qed.
Lemma look_maybe : forall l k w o r, maybe k w o -> existsb (fun x => tt_eqb x k) l = false -> look l r = false ->
  look l (w ++ r) = false.
Proof.
  intros l k w o r [[-> ->]|(t & -> & -> & H)] Hl Hr; [exact Hr|]. cbn [app look]. unfold one_of, is in *. rewrite H. exact Hl.
Qed.

(** * Names *)

Lemma r_type_ref : forall w r, Qualified w -> look [TNamespaceSeparator] r = false ->
  takes (fun n => non_empty_type_ref n) w (eq (named w)) r.
Proof.
  intros w r Hw Hr.
  assert (HP : forall p, Path p -> forall acc, takes (fun n => bind consume_identifier (fun i =>
    bind (ploop n (fun path =>
            ns <- consume_or_ignore TNamespaceSeparator ;;
            match ns with
            | Some ns => i <- consume_identifier ;; continue (path ++ [ns; i])
            | None => break path
            end) (acc ++ [i])) (fun path => ret (NTypeRef (tref_one path))))) p (eq (named (acc ++ p))) r).
  { intros p H acc.
    assert (HL : forall q, (q = [] \/ exists s q', q = s :: q' /\ is TNamespaceSeparator s /\ Path q') -> forall acc,
       ltakes (fun _ path =>
            ns <- consume_or_ignore TNamespaceSeparator ;;
            match ns with
            | Some ns => i <- consume_identifier ;; continue (path ++ [ns; i])
            | None => break path
            end) acc q (eq (acc ++ q)) r).
    { intros q. remember (List.length q) as k eqn:Ek. revert q Ek. induction k as [k IH] using lt_wf_ind. intros q -> Hq acc0.
      destruct Hq as [->|(s & q' & -> & Hs & Hq')].
      - apply l_break. eapply t_nil; [apply t_ignore_no; exact Hr|]. cbn beta iota. apply t_break. eexists. split; [reflexivity|].
        apply app_nil_r.
      - assert (X : exists i q'', q' = i :: q'' /\ word i /\ (q'' = [] \/ exists s q', q'' = s :: q' /\ is TNamespaceSeparator s /\ Path q')).
        { destruct Hq' as [i Hi|i s' p' Hi Hs' Hp']; eexists _, _; splits; eauto. right. eauto. }
        destruct X as (i & q'' & -> & Hi & Hq''). change (s :: i :: q'') with ([s; i] ++ q'').
        eapply (l_more _ _ _ _ [s; i] q'' (eq (acc0 ++ [s; i]))).
        + eapply t_tok; [apply t_ignore_yes; exact Hs|]. cbn beta iota. eapply t_tok; [apply t_identifier; exact Hi|]. cbn beta iota.
          apply t_continue. eauto.
        + intros ? <-. eapply l_conseq; [eapply IH; [|reflexivity|exact Hq'']; cbn; lia|]. intros ? <-. now rewrite <- app_assoc. }
    assert (X : exists i q, p = i :: q /\ word i /\ (q = [] \/ exists s q', q = s :: q' /\ is TNamespaceSeparator s /\ Path q')).
    { destruct H as [i Hi|i s' p' Hi Hs' Hp']; eexists _, _; splits; eauto. right. eauto. }
    destruct X as (i & q & -> & Hi & Hq). eapply t_tok; [apply t_identifier; exact Hi|]. cbn beta.
    eapply t_all; [apply t_loop; apply HL; exact Hq|]. cbn beta. intros ? <-. apply t_ret. now rewrite <- app_assoc. }
  unfold non_empty_type_ref. destruct Hw as [p H|s p Hs H].
  - eapply t_nil.
    + apply t_ignore_no. inversion H; subst; cbn [app]; (apply look_word; [assumption|reflexivity]).
    + cbn beta. exact (HP p H []).
  - eapply t_tok; [apply t_ignore_yes; exact Hs|]. cbn beta. exact (HP p H [s]).
Qed.

(** ** Types *)

Lemma r_union_loop : forall v l, Union v l -> forall first, Qualified first -> forall acc b r,
  is TBinaryOr b -> look [TNamespaceSeparator; TBinaryOr] r = false ->
  ltakes (fun n paths =>
    c <- consume_or_ignore TBinaryOr ;;
    match c with
    | Some _ => t <- non_empty_type_ref n ;; continue (paths ++ [t])
    | None => break paths
    end) acc (b :: v) (eq (acc ++ l)) r.
Proof.
  intros v l H. induction H as [w Hw|w b' v l Hw Hb H IH]; intros first Hf acc b r Hb0 Hr.
  - assert (H1 : look [TNamespaceSeparator] r = false /\ look [TBinaryOr] r = false).
    { destruct r as [|u r]; [auto|]. cbn [look] in *. unfold one_of in *. cbn [existsb] in *. repeat rewrite orb_false_r in *.
      apply orb_false_iff in Hr. exact Hr. }
    destruct H1 as [H1 H2].
    rewrite <- (app_nil_r (b :: w)). eapply (l_more _ _ _ _ (b :: w) [] (eq (acc ++ [named w]))).
    + eapply t_tok; [apply t_ignore_yes; exact Hb0|]. cbn beta iota. eapply t_all; [apply r_type_ref; [exact Hw|exact H1]|].
      cbn beta. intros ? <-. apply t_continue. eauto.
    + intros ? <-. apply l_break. eapply t_nil; [apply t_ignore_no; exact H2|]. cbn beta iota. apply t_break. eauto.
  - change (b :: w ++ b' :: v) with ((b :: w) ++ b' :: v). eapply (l_more _ _ _ _ (b :: w) (b' :: v) (eq (acc ++ [named w]))).
    + eapply t_tok; [apply t_ignore_yes; exact Hb0|]. cbn beta iota. eapply t_all; [apply r_type_ref; [exact Hw|]|].
      { lk. }
      cbn beta. intros ? <-. apply t_continue. eauto.
    + intros ? <-. eapply l_conseq; [eapply IH; [exact Hw|exact Hb|exact Hr]|]. intros ? <-. now rewrite <- app_assoc.
Qed.

Lemma look_two : forall a b r, look [a; b] r = false -> look [a] r = false /\ look [b] r = false.
Proof.
  intros a b [|u r] H; [auto|]. cbn [look] in *. unfold one_of in *. cbn [existsb] in *. repeat rewrite orb_false_r in *.
  now apply orb_false_iff in H.
Qed.
Lemma look_cons : forall a l r, look (a :: l) r = false -> look [a] r = false /\ look l r = false.
Proof.
  intros a l [|u r] H; [auto|]. cbn [look] in *. unfold one_of in *. cbn [existsb] in *. rewrite orb_false_r.
  now apply orb_false_iff in H.
Qed.

Lemma r_union : forall w l r, Union w l -> look [TNamespaceSeparator; TBinaryOr] r = false ->
  takes (fun n => non_empty_type_ref_union n) w (eq l) r.
Proof.
  intros w l r H Hr. destruct (look_two _ _ _ Hr) as [H1 H2]. unfold non_empty_type_ref_union. destruct H as [w Hw|w b v l Hw Hb H].
  - eapply t_all; [apply r_type_ref; [exact Hw|exact H1]|]. cbn beta. intros ? <-. apply t_loop, l_break.
    eapply t_nil; [apply t_ignore_no; exact H2|]. cbn beta iota. apply t_break. eauto.
  - eapply t_bind; [apply r_type_ref; [exact Hw|lk]|]. cbn beta. intros ? <-. apply t_loop.
    eapply l_conseq; [eapply r_union_loop; eauto|]. now intros ? <-.
Qed.

Lemma union_first : forall w l, Union w l -> exists t v, w = t :: v /\ (is TNamespaceSeparator t \/ word t).
Proof.
  intros w l H. destruct H as [w Hw|w b v l Hw Hb H]; destruct (word_type w Hw) as (t & x & -> & Ht); cbn; eauto.
Qed.
Lemma look_union : forall q w l r, Union w l ->
  existsb (fun k => existsb (tt_eqb k) (TNamespaceSeparator :: words)) q = false -> look q (w ++ r) = false.
Proof.
  intros q w l r H Hq. destruct H as [w Hw|w b v l Hw Hb H]; [|rewrite <- app_assoc]; now apply look_qualified.
Qed.

Lemma r_type : forall w t r, Type_ w t -> look [TNamespaceSeparator; TBinaryOr] r = false ->
  takes (fun n => data_type n) w (eq t) r.
Proof.
  intros w t r H Hr. destruct H as [wq q w l Hq Hu]. unfold data_type.
  eapply t_bind; [apply t_maybe; [exact Hq|eapply look_union; [exact Hu|reflexivity]]|]. cbn beta. intros ? <-.
  eapply t_all; [apply r_union; [exact Hu|exact Hr]|]. cbn beta. intros ? <-. now apply t_ret.
Qed.

(** the optional form, types.rs:16-40 *)
Lemma r_type_ref_option : forall w r, Qualified w -> look [TNamespaceSeparator] r = false ->
  takes (fun n => type_ref n) w (eq (Some (named w))) r.
Proof.
  intros w r Hw Hr. unfold type_ref.
  assert (HL : forall p, Path p -> forall acc, ltakes (fun (_ : nat) path =>
            i <- peek ;;
            match i with
            | Some identifier =>
                if is_identifier identifier then
                  i <- next_unwrap ;;
                  ns <- consume_or_ignore TNamespaceSeparator ;;
                  match ns with
                  | Some ns => continue (path ++ [i; ns])
                  | None => break (path ++ [i])
                  end
                else break path
            | None => break path
            end) acc p (eq (acc ++ p)) r).
  { intros p H. induction H as [i Hi|i s p Hi Hs H IH]; intros acc.
    - apply l_break. eapply t_nil; [apply t_peek|]. cbn beta. cbn [app]. rewrite (word_identifier i Hi).
      eapply t_tok; [apply t_next_unwrap|]. cbn beta. eapply t_nil; [apply t_ignore_no; exact Hr|]. cbn beta iota. apply t_break. eauto.
    - change (i :: s :: p) with ([i; s] ++ p). eapply (l_more _ _ _ _ [i; s] p (eq (acc ++ [i; s]))).
      + eapply t_nil; [apply t_peek|]. cbn beta. cbn [app]. rewrite (word_identifier i Hi).
        eapply t_tok; [apply t_next_unwrap|]. cbn beta. eapply t_tok; [apply t_ignore_yes; exact Hs|]. cbn beta iota.
        apply t_continue. eauto.
      + intros ? <-. eapply l_conseq; [apply IH|]. intros ? <-. now rewrite <- app_assoc. }
  assert (HN : forall p, Path p -> p <> []) by (intros p []; discriminate).
  destruct Hw as [p H|s p Hs H].
  - eapply t_nil; [apply t_ignore_no; inversion H; subst; cbn [app]; (apply look_word; [assumption|reflexivity])|]. cbn beta.
    eapply t_all; [apply t_loop; apply HL; exact H|]. cbn beta. intros ? <-. cbn [opt_list app]. specialize (HN p H).
    destruct p; [contradiction|]. now apply t_ret.
  - eapply t_tok; [apply t_ignore_yes; exact Hs|]. cbn beta.
    eapply t_all; [apply t_loop; apply HL; exact H|]. cbn beta. intros ? <-. cbn [opt_list app]. now apply t_ret.
Qed.
Lemma r_type_ref_none : forall t r, is_identifier t = false -> ~ is TNamespaceSeparator t ->
  takes (fun n => type_ref n) [] (eq None) (t :: r).
Proof.
  intros t r Hi Hn. unfold type_ref. eapply t_nil.
  - apply t_ignore_no. cbn [app look]. unfold one_of, is in *. cbn [existsb]. rewrite orb_false_r. apply not_true_iff_false. intros E.
    apply Hn. apply tt_eqb_eq in E. now symmetry.
  - cbn beta. eapply t_nil; [apply t_loop, l_break; eapply t_nil; [apply t_peek|]|].
    + cbn beta. cbn [app]. rewrite Hi. apply t_break. eauto.
    + cbn beta iota. cbn [opt_list]. now apply t_ret.
Qed.

Lemma r_opt_type : forall w o t r, OptType w o -> one_of_kinds [TBinaryAnd; TElipsis; TVariable] t ->
  takes (fun n => argument_type n) w (eq o) (t :: r).
Proof.
  intros w o t r H Ht. unfold argument_type.
  assert (Hl : forall l, existsb (fun k => existsb (tt_eqb k) [TBinaryAnd; TElipsis; TVariable]) l = false -> look l (t :: r) = false).
  { intros l Hl. cbn [look]. destruct (one_of l t) eqn:E; [|reflexivity]. exfalso. apply not_true_iff_false in Hl. apply Hl.
    unfold one_of in E. apply existsb_exists in E as (k & Hk & E). apply existsb_exists. exists k. split; [exact Hk|].
    apply existsb_exists. exists (t_type t). auto. }
  destruct H as [|w n H].
  - eapply t_nil; [apply t_ignore_no; now apply Hl|]. cbn beta iota. unfold type_ref_union.
    eapply t_nil; [eapply t_nil; [apply r_type_ref_none|]|].
    + unfold one_of_kinds in Ht. cbn [In] in Ht. unfold is_identifier. destruct Ht as [<-|[<-|[<-|[]]]]; reflexivity.
    + unfold one_of_kinds in Ht. cbn [In] in Ht. unfold is. destruct Ht as [<-|[<-|[<-|[]]]]; discriminate.
    + cbn beta iota. apply t_ret. reflexivity.
    + cbn beta iota. now apply t_ret.
  - destruct H as [wq q w l Hq Hu]. destruct Hq as [[-> ->]|(x & -> & -> & Hx)].
    + cbn [app]. eapply t_nil; [apply t_ignore_no; eapply look_union; [exact Hu|reflexivity]|]. cbn beta iota.
      unfold type_ref_union. eapply (t_all _ _ _ _ _ (eq (Some l))).
      * destruct Hu as [w Hw|w b v l Hw Hb H].
        -- eapply t_all; [apply r_type_ref_option; [exact Hw|now apply Hl]|]. cbn beta. intros ? <-.
           eapply t_nil; [apply t_loop, l_break; eapply t_nil; [apply t_ignore_no; now apply Hl|]|].
           ++ cbn beta iota. apply t_break. eauto.
           ++ cbn beta. apply t_ret. reflexivity.
        -- eapply t_bind; [apply r_type_ref_option; [exact Hw|lk]|]. cbn beta. intros ? <-.
           eapply t_all; [apply t_loop; eapply r_union_loop; eauto|]. cbn beta. intros ? <-. apply t_ret. reflexivity.
      * cbn beta. intros ? <-. now apply t_ret.
    + eapply t_tok; [apply t_ignore_yes; exact Hx|]. cbn beta iota. eapply t_all; [apply r_union; [exact Hu|now apply Hl]|].
      cbn beta. intros ? <-. now apply t_ret.
Qed.

Lemma r_returns : forall w o r, Returns w o -> look [TColon; TNamespaceSeparator; TBinaryOr] r = false ->
  takes (fun n => return_type n) w (eq o) r.
Proof.
  intros w o r H Hr. destruct (look_cons _ _ _ Hr) as [H1 H2]. unfold return_type. destruct H as [|c w n Hc H].
  - eapply t_nil; [apply t_ignore_no; exact H1|]. cbn beta iota. now apply t_ret.
  - eapply t_tok; [apply t_ignore_yes; exact Hc|]. cbn beta iota. eapply t_all; [apply r_type; [exact H|exact H2]|].
    cbn beta. intros ? <-. now apply t_ret.
Qed.

(** ** Lists of names *)

Lemma r_names_loop : forall v l, Names v l -> forall acc c r, is TComma c -> look [TNamespaceSeparator; TComma] r = false ->
  ltakes (fun n type_refs =>
    c <- consume_or_ignore TComma ;;
    match c with
    | Some _ => t <- non_empty_type_ref n ;; continue (type_refs ++ [t])
    | None => break type_refs
    end) acc (c :: v) (eq (acc ++ l)) r.
Proof.
  intros v l H. induction H as [w Hw|w c' v l Hw Hc H IH]; intros acc c r Hc0 Hr.
  - destruct (look_two _ _ _ Hr) as [H1 H2].
    rewrite <- (app_nil_r (c :: w)). eapply (l_more _ _ _ _ (c :: w) [] (eq (acc ++ [named w]))).
    + eapply t_tok; [apply t_ignore_yes; exact Hc0|]. cbn beta iota. eapply t_all; [apply r_type_ref; [exact Hw|exact H1]|].
      cbn beta. intros ? <-. apply t_continue. eauto.
    + intros ? <-. apply l_break. eapply t_nil; [apply t_ignore_no; exact H2|]. cbn beta iota. apply t_break. eauto.
  - change (c :: w ++ c' :: v) with ((c :: w) ++ c' :: v). eapply (l_more _ _ _ _ (c :: w) (c' :: v) (eq (acc ++ [named w]))).
    + eapply t_tok; [apply t_ignore_yes; exact Hc0|]. cbn beta iota. eapply t_all; [apply r_type_ref; [exact Hw|lk]|].
      cbn beta. intros ? <-. apply t_continue. eauto.
    + intros ? <-. eapply l_conseq; [eapply IH; [exact Hc|exact Hr]|]. intros ? <-. now rewrite <- app_assoc.
Qed.
Lemma r_names : forall w l r, Names w l -> look [TNamespaceSeparator; TComma] r = false ->
  takes (fun n => type_ref_list n) w (eq l) r.
Proof.
  intros w l r H Hr. destruct (look_two _ _ _ Hr) as [H1 H2]. unfold type_ref_list. destruct H as [w Hw|w c v l Hw Hc H].
  - eapply t_all; [apply r_type_ref; [exact Hw|exact H1]|]. cbn beta. intros ? <-. apply t_loop, l_break.
    eapply t_nil; [apply t_ignore_no; exact H2|]. cbn beta iota. apply t_break. eauto.
  - eapply t_bind; [apply r_type_ref; [exact Hw|lk]|]. cbn beta. intros ? <-. apply t_loop.
    eapply l_conseq; [eapply r_names_loop; eauto|]. now intros ? <-.
Qed.
Lemma r_identifier_list : forall w l r, Names w l -> look [TNamespaceSeparator; TComma] r = false ->
  takes (fun n => identifier_list n) w (eq l) r.
Proof.
  intros w l r H Hr. destruct (look_two _ _ _ Hr) as [H1 H2]. unfold identifier_list. apply t_loop. accumulate.
  induction H as [w Hw|w c v l Hw Hc H IH]; intros acc.
  - apply l_break. eapply t_all; [apply r_type_ref; [exact Hw|exact H1]|]. cbn beta. intros ? <-.
    eapply t_nil; [apply t_one_of_no; exact H2|]. cbn beta iota. apply t_break. eauto.
  - replace (w ++ c :: v) with ((w ++ [c]) ++ v) by now rewrite <- app_assoc.
    eapply (l_more _ _ _ _ (w ++ [c]) v (eq (acc ++ [named w]))).
    + eapply t_bind; [apply r_type_ref; [exact Hw|lk]|]. cbn beta. intros ? <-.
      eapply t_nil; [apply t_one_of_yes; lk|]. cbn beta iota. eapply t_tok; [apply t_next|]. cbn beta. apply t_continue. eauto.
    + intros ? <-. eapply l_conseq; [apply IH|]. cbn beta. intros ? (? & -> & <-). rewrite <- app_assoc. eauto.
Qed.

Lemma r_extends : forall w o r, Extends w o -> look [TExtends; TNamespaceSeparator] r = false ->
  takes (fun n => e <- consume_or_ignore TExtends ;;
             match e with
             | Some _ => t <- non_empty_type_ref n ;; ret (Some t)
             | None => ret None
             end) w (eq o) r.
Proof.
  intros w o r H Hr. destruct (look_two _ _ _ Hr) as [H1 H2]. destruct H as [|t w Ht Hw].
  - eapply t_nil; [apply t_ignore_no; exact H1|]. cbn beta iota. now apply t_ret.
  - eapply t_tok; [apply t_ignore_yes; exact Ht|]. cbn beta iota. eapply t_all; [apply r_type_ref; [exact Hw|exact H2]|].
    cbn beta. intros ? <-. now apply t_ret.
Qed.
Lemma r_name_clause : forall k w o r, NameClause k w o -> look [k; TNamespaceSeparator; TComma] r = false ->
  takes (fun n => e <- consume_or_ignore k ;;
             match e with
             | Some _ => l <- identifier_list n ;; ret (Some l)
             | None => ret None
             end) w (eq o) r.
Proof.
  intros k w o r H Hr. destruct (look_cons _ _ _ Hr) as [H1 H2]. destruct H as [|t w l Ht Hw].
  - eapply t_nil; [apply t_ignore_no; exact H1|]. cbn beta iota. now apply t_ret.
  - eapply t_tok; [apply t_ignore_yes; exact Ht|]. cbn beta iota. eapply t_all; [apply r_identifier_list; [exact Hw|exact H2]|].
    cbn beta. intros ? <-. now apply t_ret.
Qed.

(** * Variables *)

Lemma variable_links : forall w v, Variable_ w v -> forall links r,
  ltakes (fun (_ : nat) links =>
            b <- next_token_one_of [TVariable] ;;
            if b then
              v <- consume_or_ff_before TVariable [TSemicolon; TScriptEnd] ;;
              match t_label v with
              | Some _ =>
                  break (fold_left (fun root link => NAliasedVariable link root) links (NVariable v))
              | None => continue (v :: links)
              end
            else
              match links with
              | last :: _ =>
                  match token_end last with
                  | Some pos =>
                      push_err (EMissingIdentifier last) ;;;
                      break (NVariable (token_missing pos))
                  | None => panic
                  end
              | [] => panic
              end) links w (eq (fold_left (fun root link => NAliasedVariable link root) links v)) r.
Proof.
  intros w v H. induction H as [t Ht Hl|t w v Ht Hl H IH]; intros links r.
  - apply l_break. eapply t_nil; [apply t_one_of_yes; lk|]. cbn beta iota.
    eapply t_tok; [apply t_before; exact Ht|]. cbn beta. destruct (t_label t); [|contradiction]. apply t_break. eauto.
  - change (t :: w) with ([t] ++ w). eapply (l_more _ _ _ _ [t] w (eq (t :: links))).
    + eapply t_nil; [apply t_one_of_yes; lk|]. cbn beta iota. eapply t_tok; [apply t_before; exact Ht|]. cbn beta. rewrite Hl.
      apply t_continue. eauto.
    + intros ? <-. apply IH.
Qed.
Lemma variable_first : forall w v, Variable_ w v -> exists t x, w = t :: x /\ is TVariable t.
Proof. intros w v H. destruct H; eauto. Qed.
Lemma r_variable : forall `{RT : Runtime} w v r, Variable_ w v -> takes (fun n => variable (run n) n) w (eq v) r.
Proof.
  intros RT w v r H. unfold variable. destruct H as [t Ht Hl|t w v Ht Hl H].
  - eapply t_tok; [apply t_consume; exact Ht|]. cbn beta. destruct (t_label t); [|contradiction]. now apply t_ret.
  - eapply t_tok; [apply t_consume; exact Ht|]. cbn beta. rewrite Hl.
    destruct (variable_first w v H) as (u & x & -> & Hu).
    eapply t_nil; [apply t_ignore_no; lk|]. cbn beta iota. apply t_loop. apply (variable_links _ _ H [t]).
Qed.

Lemma r_lexical : forall w n r, Lexical w n -> takes (fun _ => lexical_variable) w (eq n) r.
Proof.
  intros w n r [wr o v Hr Hv]. unfold lexical_variable. eapply t_bind; [apply t_maybe; [exact Hr|lk]|]. cbn beta. intros ? <-.
  eapply t_tok; [apply t_consume; exact Hv|]. cbn beta. now apply t_ret.
Qed.
Lemma look_lexical : forall w n l r, Lexical w n -> existsb (fun k => existsb (tt_eqb k) [TBinaryAnd; TVariable]) l = false ->
  look l (w ++ r) = false.
Proof.
  intros w n l r [wr o v Hr Hv] Hl.
  assert (X : forall t x, In (t_type t) [TBinaryAnd; TVariable] -> look l (t :: x) = false).
  { intros t x Ht. cbn [look]. destruct (one_of l t) eqn:E; [|reflexivity]. exfalso. apply not_true_iff_false in Hl. apply Hl.
    unfold one_of in E. apply existsb_exists in E as (k & Hk & E). apply existsb_exists. exists k. split; [exact Hk|].
    apply existsb_exists. exists (t_type t). auto. }
  destruct Hr as [[-> ->]|(t & -> & -> & Ht)]; cbn [app]; apply X; unfold is in *; [rewrite Hv|rewrite Ht]; cbn; auto.
Qed.
