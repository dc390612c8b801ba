(** Imports, constants and variables of SpecGrammar.v, read by Parser.v. *)

From Verif Require Import Base Token Node DocBlock Parser TokenFacts ParserBase SpecCalm SpecExpr SpecGrammar PrattFacts GrammarBase GrammarNames GrammarExpr GrammarClass GrammarPratt.

Lemma look_in : forall l w r, headed l w -> look l (w ++ r) = true.
Proof. intros l w r (t & x & -> & H). cbn [app look]. unfold one_of. apply existsb_exists. exists (t_type t). split; [exact H|]. now apply tt_eqb_eq. Qed.
Lemma tt_sym : forall a b, tt_eqb a b = tt_eqb b a.
Proof. intros a b. unfold tt_eqb. apply N.eqb_sym. Qed.

(** * Imports *)

Lemma r_namespace_ref : forall w we r, Qualified w ->
  ((we = [] /\ look [TNamespaceSeparator] r = false) \/
   (exists s t r', we = [s] /\ is TNamespaceSeparator s /\ r = t :: r' /\ is_identifier t = false)) ->
  takes (fun n => non_empty_namespace_ref n) (w ++ we) (eq (w ++ we)) r.
Proof.
  intros w we r Hw He.
  assert (HL : forall q, (q = [] \/ exists s q', q = s :: q' /\ is TNamespaceSeparator s /\ Path q') -> forall acc,
     ltakes (fun _ path =>
       ns <- consume_or_ignore TNamespaceSeparator ;;
       match ns with
       | Some ns =>
           p <- peek ;;
           match p with
           | Some ident =>
               if is_identifier ident then (i <- next_unwrap ;; continue ((path ++ [ns]) ++ [i]))
               else break (path ++ [ns])
           | None => break (path ++ [ns])
           end
       | None => break path
       end) acc (q ++ we) (eq (acc ++ q ++ we)) r).
  { intros q. remember (List.length q) as k eqn:Ek. revert q Ek. induction k as [k IH] using lt_wf_ind. intros q -> Hq acc.
    destruct Hq as [->|(s & q' & -> & Hs & Hq')]; cbn [app].
    - destruct He as [[-> Hr]|(s & t & r' & -> & Hs & -> & Ht)].
      + apply l_break. no. done_. eexists. split; [reflexivity|]. apply app_nil_r.
      + apply l_break. tk. eapply t_nil; [apply t_peek|]. cbn beta. cbn [app]. rewrite Ht. done_. eauto.
    - assert (X : exists i q'', q' = i :: q'' /\ word i /\ (q'' = [] \/ exists s q', q'' = s :: q' /\ is TNamespaceSeparator s /\ Path q')).
      { destruct Hq' as [i Hi|i s' p' Hi Hs' Hp']; eexists _, _; splits; eauto. right. eauto. }
      destruct X as (i & q'' & -> & Hi & Hq''). cbn [app]. change (s :: i :: q'' ++ we) with ([s; i] ++ q'' ++ we).
      eapply (l_more _ _ _ _ [s; i] (q'' ++ we) (eq ((acc ++ [s]) ++ [i]))).
      + tk. eapply t_nil; [apply t_peek|]. cbn beta. cbn [app]. rewrite (word_identifier i Hi). tk. done_. eauto.
      + intros ? <-. eapply l_conseq; [eapply IH; [|reflexivity|exact Hq'']; cbn; lia|]. intros ? <-. repeat (rewrite <- app_assoc; cbn [app]). reflexivity. }
  assert (X : forall p, Path p -> exists i q, p = i :: q /\ word i /\ (q = [] \/ exists s q', q = s :: q' /\ is TNamespaceSeparator s /\ Path q')).
  { intros p H. destruct H as [i Hi|i s' p' Hi Hs' Hp']; eexists _, _; splits; eauto. right. eauto. }
  unfold non_empty_namespace_ref. cbv zeta. destruct Hw as [p H|s p Hs H]; destruct (X p H) as (i & q & -> & Hi & Hq); cbn [app].
  - no. tk. cbn [opt_list app]. apply t_loop. exact (HL q Hq [i]).
  - tk. tk. cbn [opt_list app]. apply t_loop. exact (HL q Hq [s; i]).
Qed.

Lemma r_alias : forall f w x, Alias f w x -> forall r, look [TNamespaceSeparator; TAs] r = false ->
  takes (fun n =>
    name <- non_empty_type_ref n ;;
    aliased <- consume_or_ignore TAs ;;
    match aliased with
    | Some _ => alias <- consume TIdentifier ;; ret (f name aliased (Some alias))
    | None => ret (f name None None)
    end) w (eq x) r.
Proof.
  intros f w x H r Hr. destruct (look_two _ _ _ Hr) as [H1 H2]. destruct H as [f w Hw|f w t i Hw Ht Hi].
  - eapply t_all; [apply r_type_ref; [exact Hw|exact H1]|]. cbn beta. intros ? <-. no. now done_.
  - eapply t_bind; [apply r_type_ref; [exact Hw|lk]|]. cbn beta. intros ? <-. tk. tk. now done_.
Qed.

Lemma r_aliases : forall f w l, Aliases f w l -> forall s r, is TSemicolon s ->
  takes (fun n => ploop n (fun imports =>
    name <- non_empty_type_ref n ;;
    aliased <- consume_or_ignore TAs ;;
    imports <- match aliased with
      | Some _ =>
          alias <- consume TIdentifier ;;
          ret (imports ++ [f name aliased (Some alias)])
      | None =>
          ret (imports ++ [f name None None])
      end ;;
    c <- consume_or_ignore TComma ;;
    match c with Some _ => continue imports | None => break imports end) []) w (eq l) (s :: r).
Proof.
  intros f w l H s r Hs. apply t_loop. accumulate.
  assert (HA : forall f w x, Alias f w x -> forall B (K : nat -> list Node -> P B) u T acc r,
    look [TNamespaceSeparator; TAs] (u ++ r) = false -> takes (fun n => K n (acc ++ [x])) u T r ->
    takes (fun n =>
      name <- non_empty_type_ref n ;;
      aliased <- consume_or_ignore TAs ;;
      imports <- match aliased with
        | Some _ =>
            alias <- consume TIdentifier ;;
            ret (acc ++ [f name aliased (Some alias)])
        | None =>
            ret (acc ++ [f name None None])
        end ;;
      K n imports) (w ++ u) T r).
  { clear. intros f w x H B K u T acc r L HK. destruct (look_two _ _ _ L) as [L1 L2]. destruct H as [f w Hw|f w t i Hw Ht Hi].
    - eapply t_bind; [apply r_type_ref; [exact Hw|exact L1]|]. cbn beta. intros ? <-. no.
      eapply t_nil; [apply t_ret; reflexivity|]. exact HK.
    - rewrite <- app_assoc. cbn [app]. eapply t_bind; [apply r_type_ref; [exact Hw|lk]|]. cbn beta. intros ? <-. tk.
      eapply (t_bind _ _ _ _ [i] u (eq (acc ++ [f (named w) (Some t) (Some i)]))); [tk; now apply t_ret|]. cbn beta. intros ? <-. exact HK. }
  induction H as [f w n Hn|f w n c v l Hn Hc H IH]; intros acc.
  - rewrite <- (app_nil_r w). apply l_break.
    apply (HA f w n Hn _ (fun _ imports => c <- consume_or_ignore TComma ;; match c with Some _ => continue imports | None => break imports end)); [lk|].
    cbn beta. no. done_. eauto.
  - change (w ++ c :: v) with (w ++ [c] ++ v). rewrite app_assoc. eapply (l_more _ _ _ _ _ _ (eq (acc ++ [n]))).
    + apply (HA f w n Hn _ (fun _ imports => c <- consume_or_ignore TComma ;; match c with Some _ => continue imports | None => break imports end)); [lk|].
      cbn beta. tk. done_. eauto.
    + intros ? <-. eapply l_conseq; [apply IH|]. cbn beta. intros ? (l' & -> & <-). exists (n :: l). rewrite <- app_assoc. auto.
Qed.

Lemma r_import : forall w x, ImportItem w x -> forall r, look [TNamespaceSeparator; TAs] r = false ->
  takes (fun n => symbol_import n) w (eq x) r.
Proof.
  intros w x H r Hr. unfold symbol_import. destruct H as [t w n Ht H|t w n Ht H|t w n Ht H].
  - no. no. exact (r_alias _ _ _ H r Hr).
  - tk. exact (r_alias _ _ _ H r Hr).
  - no. tk. exact (r_alias _ _ _ H r Hr).
Qed.
Lemma import_head : forall w x, ImportItem w x -> headed [TIdentifier; TConst; TFunction] w.
Proof.
  intros w x H. destruct H as [t w n Ht H|t w n Ht H|t w n Ht H]; try hd. apply headed_cons.
  unfold one_of_kinds in Ht. cbn [In] in *. tauto.
Qed.

Lemma r_imports : forall w l, ImportItems w l -> forall b r, is TCloseCurly b -> takes (fun n => symbol_imports n) w (eq l) (b :: r).
Proof.
  intros w l H b r Hb. unfold symbol_imports.
  assert (HL : forall v l, ImportItems v l -> forall c acc, is TComma c -> ltakes (fun n imports =>
    c <- consume_or_ignore TComma ;;
    match c with
    | Some _ =>
        b <- next_token_one_of [TIdentifier; TConst; TFunction] ;;
        if negb b then break imports
        else (i <- symbol_import n ;; continue (imports ++ [i]))
    | None => break imports
    end) acc (c :: v) (eq (acc ++ l)) (b :: r)).
  { clear w l H. intros v l H. induction H as [w n Hn|w n c0 Hn Hc0|w n c0 v l Hn Hc0 H IH]; intros c acc Hc.
    - rewrite <- (app_nil_r (c :: w)). eapply (l_more _ _ _ _ _ _ (eq (acc ++ [n]))).
      + tk. eapply t_nil; [apply t_one_of_yes; now apply look_in, import_head with n|]. cbn beta iota. cbn [negb].
        eapply t_all; [apply r_import; [exact Hn|lk]|]. cbn beta. intros ? <-. done_. eauto.
      + intros ? <-. apply l_break. no. done_. eauto.
    - change (c :: w ++ [c0]) with ((c :: w) ++ [c0]). eapply (l_more _ _ _ _ _ _ (eq (acc ++ [n]))).
      + tk. eapply t_nil; [apply t_one_of_yes; now apply look_in, import_head with n|]. cbn beta iota. cbn [negb].
        eapply t_all; [apply r_import; [exact Hn|lk]|]. cbn beta. intros ? <-. done_. eauto.
      + intros ? <-. apply l_break. tk. no. cbn [negb]. done_. eauto.
    - change (c :: w ++ c0 :: v) with ((c :: w) ++ c0 :: v). eapply (l_more _ _ _ _ _ _ (eq (acc ++ [n]))).
      + tk. eapply t_nil; [apply t_one_of_yes; now apply look_in, import_head with n|]. cbn beta iota. cbn [negb].
        eapply t_all; [apply r_import; [exact Hn|lk]|]. cbn beta. intros ? <-. done_. eauto.
      + intros ? <-. eapply l_conseq; [apply IH; exact Hc0|]. cbn beta. intros ? <-. now rewrite <- app_assoc. }
  destruct H as [w n Hn|w n c Hn Hc|w n c v l Hn Hc H].
  - eapply t_all; [apply r_import; [exact Hn|lk]|]. cbn beta. intros ? <-. apply t_loop, l_break. no. done_. eauto.
  - eapply t_bind; [apply r_import; [exact Hn|lk]|]. cbn beta. intros ? <-. apply t_loop, l_break. tk. no. cbn [negb]. done_. eauto.
  - eapply t_bind; [apply r_import; [exact Hn|lk]|]. cbn beta. intros ? <-. apply t_loop. exact (HL v l H c [n] Hc).
Qed.

Lemma last_snoc : forall A (w : list A) x, last_opt (w ++ [x]) = Some x.
Proof. intros A w x. unfold last_opt. rewrite rev_app_distr. reflexivity. Qed.
Lemma path_last : forall w, Path w -> exists v t, w = v ++ [t] /\ word t.
Proof.
  intros w H. induction H as [i Hi|i s p Hi Hs H (v & t & -> & Ht)]; [exists [], i; auto|]. exists (i :: s :: v), t. auto.
Qed.
Lemma qualified_last : forall w, Qualified w -> exists t, last_opt w = Some t /\ tt_eqb (t_type t) TNamespaceSeparator = false.
Proof.
  assert (X : forall t, word t -> tt_eqb (t_type t) TNamespaceSeparator = false).
  { intros t H. unfold word, one_of_kinds, words in H. cbn [In] in H. repeat (destruct H as [H|H]; [rewrite <- H; reflexivity|]). destruct H. }
  intros w [p H|s p Hs H]; destruct (path_last p H) as (v & t & -> & Ht); exists t; split; auto; [|change (s :: v ++ [t]) with ((s :: v) ++ [t])]; apply last_snoc.
Qed.

Lemma r_use : forall t w l, UseItems t w l -> forall s r, is TSemicolon s ->
  takes (fun n => use_statement n t) (w ++ [s]) (eq (NUseStatement t l)) r.
Proof.
  intros t w l H s r Hs. unfold use_statement. cbv zeta.
  eapply (t_all _ _ _ _ _ (eq l)); [|cbn beta; intros ? <-; now done_]. apply t_loop. accumulate.
  assert (HA : forall t w x, UseItem t w x -> forall B (K : nat -> list Node -> P B) u T acc r,
    look [TNamespaceSeparator; TAs] (u ++ r) = false -> takes (fun n => K n (acc ++ [x])) u T r ->
    takes (fun n =>
      declaration <- non_empty_namespace_ref n ;;
      imports <- match last_opt declaration with
        | None => panic
        | Some last =>
            if tt_eqb (t_type last) TNamespaceSeparator then
              oc <- consume TOpenCurly ;;
              uses <- symbol_imports n ;;
              cc <- consume TCloseCurly ;;
              ret (acc ++ [(NGroupedUse t (NTypeRef (tref_one declaration)) oc uses cc)])
            else
              aliased <- consume_or_ignore TAs ;;
              match aliased with
              | Some _ =>
                  alias <- consume TIdentifier ;;
                  ret (acc ++ [(NUseDeclaration (Some t) (NTypeRef (tref_one declaration)) aliased (Some alias))])
              | None =>
                  ret (acc ++ [(NUseDeclaration (Some t) (NTypeRef (tref_one declaration)) None None)])
              end
        end ;;
      K n imports) (w ++ u) T r).
  { clear. intros t w x H B K u T acc r L HK. destruct (look_two _ _ _ L) as [L1 L2].
    destruct H as [t i w n Hi H|t i w s a v l b Hi Hq Hs Ha Hv Hb].
    - remember (NUseDeclaration (Some t)) as f eqn:Ef. remember (i :: w) as wi eqn:Ew. clear Ew Hi. destruct H as [f w' Hw|f w' a' i' Hw Ht Hi']; subst f.
      + destruct (qualified_last w' Hw) as (y & Ey & Hy).
        eapply t_bind.
        { rewrite <- (app_nil_r w') at 1. apply r_namespace_ref; [exact Hw|left; split; [reflexivity|exact L1]]. }
        cbn beta. intros ? <-. rewrite app_nil_r. rewrite Ey, Hy. eapply t_nil; [|exact HK].
        no. now apply t_ret.
      + destruct (qualified_last w' Hw) as (y & Ey & Hy). rewrite <- app_assoc. cbn [app]. eapply t_bind.
        { rewrite <- (app_nil_r w') at 1. apply r_namespace_ref; [exact Hw|left; split; [reflexivity|lk]]. }
        cbn beta. intros ? <-. rewrite app_nil_r. rewrite Ey, Hy. change (a' :: i' :: u) with ([a'; i'] ++ u).
        eapply (t_bind _ _ _ _ _ _ (eq _)); [|intros ? <-; exact HK]. tk. tk. now apply t_ret.
    - replace ((i :: w ++ s :: a :: v ++ [b]) ++ u) with (((i :: w) ++ [s]) ++ (a :: v ++ [b]) ++ u)
        by (cbn [app]; repeat (rewrite <- app_assoc; cbn [app]); reflexivity).
      eapply t_bind.
      { apply r_namespace_ref; [exact Hq|]. right. cbn [app]. eexists _, _, _. splits; [reflexivity|exact Hs|reflexivity|].
        unfold is in Ha. unfold is_identifier. now rewrite Ha. }
      cbn beta. intros ? <-. rewrite last_snoc. unfold is in Hs. rewrite Hs. cbn [tt_eqb].
      eapply (t_bind _ _ _ _ _ _ (eq _)); [|intros ? <-; exact HK]. tk. eapply t_bind; [apply r_imports; [exact Hv|exact Hb]|].
      cbn beta. intros ? <-. tk. now apply t_ret. }
  induction H as [t w n Hn|t w n c v l Hn Hc H IH]; intros acc.
  - apply l_break. apply (HA t w n Hn _ (fun _ imports => c <- consume_or_ignore TComma ;;
      match c with Some _ => continue imports | None => consume_or_ff_after TSemicolon [TSemicolon] ;;; break imports end)); [lk|].
    cbn beta. no. tk. done_. eauto.
  - replace ((w ++ c :: v) ++ [s]) with ((w ++ [c]) ++ v ++ [s]) by (repeat (rewrite <- app_assoc; cbn [app]); reflexivity).
    eapply (l_more _ _ _ _ _ _ (eq (acc ++ [n]))).
    + apply (HA t w n Hn _ (fun _ imports => c <- consume_or_ignore TComma ;;
        match c with Some _ => continue imports | None => consume_or_ff_after TSemicolon [TSemicolon] ;;; break imports end)); [lk|].
      cbn beta. tk. done_. eauto.
    + intros ? <-. eapply l_conseq; [apply IH|]. cbn beta. intros ? (l' & -> & <-). exists (n :: l). rewrite <- app_assoc. auto.
Qed.

(** * Constants and variables *)

Section Values.
Context `{RT : Runtime}.
Variable k : nat.
Hypothesis HE : forall w e t r, (List.length w < k)%nat -> Expr w e -> ends_expression t -> (is TDoubleArrow t -> no_yield w) ->
  takes (fun n => r_expr (run n) 0) w (Expr w) (t :: r).
Ltac ex := first [eapply t_bind; [eapply HE; [len|eassumption|ends|arrow]|] | eapply t_all; [eapply HE; [len|eassumption|ends|arrow]|]];
  cbn beta; let e := fresh "e'" in let H := fresh "He'" in intros e H.

Lemma v_constants : forall w l, Constants w l -> (List.length w < k)%nat -> forall t s r, is TConst t -> is TSemicolon s ->
  takes (fun n => const_statement (run n) n) (t :: w ++ [s]) (fun x => exists l', x = NConstStatement t l' /\ Constants w l') r.
Proof.
  intros w l H Hk t s r Ht Hs. unfold const_statement, const_item. cbv zeta. tk.
  assert (HL : forall v l, Constants v l -> (List.length v < k)%nat -> forall c acc, is TComma c -> ltakes (fun n constants =>
    e <- consume_or_ignore TSemicolon ;;
    match e with
    | Some _ => break constants
    | None =>
        consume_or_ff_after TComma [TSemicolon] ;;;
        c <- (name <- consume_identifier ;;
              token <- consume TAssignment ;;
              value <- r_expr (run n) 0 ;;
              ret (NConst name token value)) ;;
        continue (constants ++ [c])
    end) acc (c :: v ++ [s]) (fun x => exists l', x = acc ++ l' /\ Constants v l') r).
  { clear w l H Hk. intros v l H. induction H as [i q w e Hi Hq He|i q w e c0 v l Hi Hq He Hc0 H IH]; intros Hk c acc Hc.
    - change (c :: (i :: q :: w) ++ [s]) with ((c :: i :: q :: w) ++ [s]).
      eapply (l_more _ _ _ _ _ _ (fun a => exists e', a = acc ++ [NConst i q e'] /\ Expr w e')).
      + no. tk. eapply (t_all _ _ _ _ _ (fun x => exists e', x = NConst i q e' /\ Expr w e')).
        * tk. tk. ex. done_. eauto.
        * cbn beta. intros ? (e' & -> & He'). done_. eauto.
      + intros ? (e' & -> & He'). apply l_break. tk. done_. eexists. split; [reflexivity|]. eexists. split; [reflexivity|]. now constructor.
    - replace (c :: (i :: q :: w ++ c0 :: v) ++ [s]) with ((c :: i :: q :: w) ++ c0 :: v ++ [s])
        by (cbn [app]; repeat (rewrite <- app_assoc; cbn [app]); reflexivity).
      eapply (l_more _ _ _ _ _ _ (fun a => exists e', a = acc ++ [NConst i q e'] /\ Expr w e')).
      + no. tk. eapply (t_all _ _ _ _ _ (fun x => exists e', x = NConst i q e' /\ Expr w e')).
        * tk. tk. ex. done_. eauto.
        * cbn beta. intros ? (e' & -> & He'). done_. eauto.
      + intros ? (e' & -> & He'). eapply l_conseq; [apply IH; [len|exact Hc0]|]. cbn beta. intros ? (l' & -> & Hl').
        exists (NConst i q e' :: l'). split; [now rewrite <- app_assoc|]. now constructor. }
  destruct H as [i q w e Hi Hq He|i q w e c v l Hi Hq He Hc H].
  - change ((i :: q :: w) ++ [s]) with ((i :: q :: w) ++ [s]).
    eapply (t_bind _ _ _ _ _ _ (fun x => exists e', x = NConst i q e' /\ Expr w e')).
    + tk. tk. ex. done_. eauto.
    + cbn beta. intros ? (e' & -> & He'). eapply (t_all _ _ _ _ _ (eq _)).
      * apply t_loop, l_break. tk. done_. eauto.
      * cbn beta. intros ? <-. done_. eexists. split; [reflexivity|]. now constructor.
  - replace ((i :: q :: w ++ c :: v) ++ [s]) with ((i :: q :: w) ++ c :: v ++ [s])
        by (cbn [app]; repeat (rewrite <- app_assoc; cbn [app]); reflexivity).
    eapply (t_bind _ _ _ _ _ _ (fun x => exists e', x = NConst i q e' /\ Expr w e')).
    + tk. tk. ex. done_. eauto.
    + cbn beta. intros ? (e' & -> & He'). eapply t_all; [apply t_loop; eapply (HL v l H); [len|exact Hc]|].
      cbn beta. intros ? (l' & -> & Hl'). done_. eexists. split; [reflexivity|]. now constructor.
Qed.

Lemma r_globals : forall w l, Globals w l -> forall t s r, is TGlobal t -> is TSemicolon s ->
  takes (fun n => global_variables (run n) n) (t :: w ++ [s]) (eq (NGlobalVariablesStatement t l)) r.
Proof.
  intros w l H t s r Ht Hs. unfold global_variables. cbv zeta. tk.
  assert (Hv : forall w v r l, Variable_ w v -> existsb (tt_eqb TVariable) l = false -> look l (w ++ r) = false).
  { clear. intros w v r l H Hl. destruct (variable_first _ _ H) as (t & x & -> & Ht). cbn [app look]. unfold one_of, is in *. rewrite Ht.
    rewrite <- Hl. clear. induction l as [|a l IH]; [reflexivity|]. cbn [existsb]. rewrite IH. f_equal. apply tt_sym. }
  assert (HL : forall v l, Globals v l -> forall acc, ltakes (fun n vars =>
            b <- next_token_one_of [TSemicolon] ;;
            if b then break vars
            else
              v <- variable (run n) n ;;
              b <- next_token_one_of [TSemicolon] ;;
              if b then break (vars ++ [v])
              else (consume_or_ff_after TComma [TSemicolon] ;;; continue (vars ++ [v]))) acc v (eq (acc ++ l)) (s :: r)).
  { clear w l H. intros v l H. induction H as [w v Hw|w v c u l Hw Hc H IH]; intros acc.
    - apply l_break. eapply t_nil; [apply t_one_of_no; eapply Hv; [exact Hw|reflexivity]|]. cbn beta iota.
      eapply t_all; [apply r_variable; exact Hw|]. cbn beta. intros ? <-. yes. done_. eauto.
    - change (w ++ c :: u) with (w ++ [c] ++ u). rewrite app_assoc. eapply (l_more _ _ _ _ _ _ (eq (acc ++ [v]))).
      + eapply t_nil; [apply t_one_of_no; rewrite <- app_assoc; eapply Hv; [exact Hw|reflexivity]|]. cbn beta iota.
        eapply t_bind; [apply r_variable; exact Hw|]. cbn beta. intros ? <-. no. tk. done_. eauto.
      + intros ? <-. eapply l_conseq; [apply IH|]. cbn beta. intros ? <-. now rewrite <- app_assoc. }
  destruct H as [w v Hw|w v c u l Hw Hc H].
  - eapply t_bind; [apply r_variable; exact Hw|]. cbn beta. intros ? <-. no.
    eapply (t_nil _ _ _ _ _ [v]); [apply t_loop, l_break; yes; done_; eauto|]. tk. now done_.
  - rewrite <- app_assoc. cbn [app]. eapply t_bind; [apply r_variable; exact Hw|]. cbn beta. intros ? <-. tk.
    eapply t_bind; [apply t_loop; exact (HL u l H [v])|]. cbn beta. intros ? <-. tk. now done_.
Qed.

Lemma v_statics : forall w l, Statics w l -> (List.length w < k)%nat -> forall t s r, is TSemicolon s ->
  takes (fun n => static_variables (run n) n t) w (fun x => exists l', x = NStaticVariablesStatement t l' /\ Statics w l') (s :: r).
Proof.
  intros w l H Hk t s r Hs. unfold static_variables. cbv zeta.
  eapply (t_all _ _ _ _ _ (Statics w)); [|cbn beta; intros l' Hl'; done_; eauto]. apply t_loop. accumulate. revert Hk.
  induction H as [v Hv|v q w e Hv Hq He|v c u l Hv Hc H IH|v q w e c u l Hv Hq He Hc H IH]; intros Hk acc.
  - apply l_break. tk. no. eapply t_nil; [apply t_ret; reflexivity|]. cbn beta. no. done_. eexists. split; [reflexivity|].
    exists []. rewrite app_nil_r. split; [reflexivity|]. now constructor.
  - apply l_break. tk. tk. eapply (t_all _ _ _ _ _ (fun x => exists e', x = acc ++ [NStaticVariable v (Some q) (Some e')] /\ Expr w e')).
    + ex. done_. eauto.
    + cbn beta. intros ? (e' & -> & He'). no. done_. eexists. split; [reflexivity|]. eexists. split; [reflexivity|]. now constructor.
  - change (v :: c :: u) with ([v; c] ++ u). eapply (l_more _ _ _ _ _ _ (eq acc)).
    + tk. no. eapply t_nil; [apply t_ret; reflexivity|]. cbn beta. tk. done_. eauto.
    + intros ? <-. eapply l_conseq; [apply IH; len|]. cbn beta. intros ? (l' & -> & Hl'). eexists. split; [reflexivity|]. now constructor.
  - replace (v :: q :: w ++ c :: u) with ((v :: q :: w ++ [c]) ++ u) by (cbn [app]; repeat (rewrite <- app_assoc; cbn [app]); reflexivity).
    eapply (l_more _ _ _ _ _ _ (fun x => exists e', x = acc ++ [NStaticVariable v (Some q) (Some e')] /\ Expr w e')).
    + tk. tk. eapply (t_bind _ _ _ _ _ _ (fun x => exists e', x = acc ++ [NStaticVariable v (Some q) (Some e')] /\ Expr w e')).
      * ex. done_. eauto.
      * cbn beta. intros ? (e' & -> & He'). tk. done_. eauto.
    + intros ? (e' & -> & He'). eapply l_conseq; [apply IH; len|]. cbn beta. intros ? (l' & -> & Hl').
      exists (NStaticVariable v (Some q) (Some e') :: l'). split; [now rewrite <- app_assoc|].
      replace ((v :: q :: w ++ [c]) ++ u) with (v :: q :: w ++ c :: u) by (cbn [app]; repeat (rewrite <- app_assoc; cbn [app]); reflexivity).
      now constructor.
Qed.
End Values.
