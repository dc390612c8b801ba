(** Collecting the symbols of a file gives the same tree whatever else is in
    the arena: the nodes only get other ids. *)

From Verif Require Import Base Token Node Assoc AssocFacts Arena ArenaFacts Symbol EnvMonad
  EnvFacts Workspace.

Definition shift_sym (f : N) (d : Symbol) : Symbol :=
  with_params (map (fun p => (f + fst p, snd p)) (y_params d)) d.
Definition shift_node (f : N) (n : anode Symbol) : anode Symbol :=
  mkAnode (opt_map (N.add f) (n_parent n)) (map (N.add f) (n_kids n)) (shift_sym f (n_data n)).

(** [a2] holds, from the id [f] on, what [a1] holds. *)
Record same_tree (f : N) (a1 a2 : arena Symbol) : Prop := {
  st_wf1 : wf a1;
  st_wf2 : wf a2;
  st_next : a_next a2 = f + a_next a1;
  st_node : forall i, node_of a2 (f + i) = opt_map (shift_node f) (node_of a1 i)
}.

Definition osim {S A B} (Q : S -> S -> Prop) (R : A -> B -> Prop) (o1 : out S A) (o2 : out S B) : Prop :=
  match o1, o2 with
  | Done x s, Done y t => R x y /\ Q s t
  | Panic, Panic | Fuel, Fuel => True
  | _, _ => False
  end.

Section Sim.
Variable f : N.

Definition sim (s1 s2 : wst) : Prop := same_tree f (w_arena s1) (w_arena s2) /\ w_ns s1 = w_ns s2.

Definition wsim {A B} (R : A -> B -> Prop) (m1 : W A) (m2 : W B) : Prop :=
  forall s1 s2, sim s1 s2 -> osim sim R (m1 s1) (m2 s2).

Lemma sim_bind : forall A B A' B' (R : A -> B -> Prop) (R' : A' -> B' -> Prop) m1 m2 k1 k2,
  wsim R m1 m2 -> (forall x y, R x y -> wsim R' (k1 x) (k2 y)) ->
  wsim R' (ebind m1 k1) (ebind m2 k2).
Proof.
  intros A B A' B' R R' m1 m2 k1 k2 h k s1 s2 j. specialize (h s1 s2 j). unfold ebind.
  destruct (m1 s1) as [x t1| |], (m2 s2) as [y t2| |]; simpl in h; try contradiction; simpl; auto.
  destruct h as [r j']. apply k; auto.
Qed.

Lemma sim_ret : forall A B (R : A -> B -> Prop) x y, R x y -> wsim R (eret x) (eret y).
Proof. intros A B R x y r s1 s2 j. simpl. auto. Qed.

Lemma sim_opt : forall A (o : option A), wsim eq (eopt o) (eopt o).
Proof. intros A [x|]; [apply sim_ret; auto|]. intros s1 s2 j. simpl. auto. Qed.

Lemma sim_panic : forall A B (R : A -> B -> Prop), wsim R epanic epanic.
Proof. intros A B R s1 s2 j. simpl. auto. Qed.
Lemma sim_fuel : forall A B (R : A -> B -> Prop), wsim R efuel efuel.
Proof. intros A B R s1 s2 j. simpl. auto. Qed.

Lemma sim_ns : wsim eq (eget w_ns) (eget w_ns).
Proof. intros s1 s2 [j e]. simpl. split; auto. split; auto. Qed.

Lemma sim_set_ns : forall o, wsim eq (set_ns o) (set_ns o).
Proof. intros o s1 s2 [j e]. simpl. split; auto. split; auto. Qed.

Lemma sim_iter : forall A (g1 g2 : A -> W unit) l,
  (forall x, In x l -> wsim eq (g1 x) (g2 x)) -> wsim eq (eiter g1 l) (eiter g2 l).
Proof.
  induction l as [|x l IH]; intros h; simpl; [apply sim_ret; auto|].
  eapply sim_bind; [apply h; simpl; auto|]. intros _ _ _. apply IH. intros; apply h; simpl; auto.
Qed.

Lemma sim_data : forall i, wsim (fun d1 d2 => d2 = shift_sym f d1) (e_data i) (e_data (f + i)).
Proof.
  intros i s1 s2 [j e]. unfold e_data, data. cbn [the_arena wst_arena].
  rewrite (st_node _ _ _ j). destruct (node_of (w_arena s1) i); simpl; auto. split; [auto|split; auto].
Qed.

Lemma sim_parent : forall i, wsim (fun o1 o2 => o2 = opt_map (N.add f) o1) (e_parent i) (e_parent (f + i)).
Proof.
  intros i s1 s2 [j e]. unfold e_parent, parent_of. cbn [the_arena wst_arena].
  rewrite (st_node _ _ _ j). destruct (node_of (w_arena s1) i); simpl; auto. split; [auto|split; auto].
Qed.

Lemma sim_update : forall i g1 g2, (forall d, g2 (shift_sym f d) = shift_sym f (g1 d)) ->
  wsim eq (e_update i g1) (e_update (f + i) g2).
Proof.
  intros i g1 g2 hg s1 s2 [j e]. unfold e_update. cbn [the_arena wst_arena].
  destruct (update i g1 (w_arena s1)) as [a1|] eqn:e1.
  - destruct (update (f + i) g2 (w_arena s2)) as [a2|] eqn:e2.
    + simpl. split; auto. split; auto. simpl.
      destruct (node_of_update _ _ _ _ e1) as (n1 & _ & q1).
      destruct (node_of_update _ _ _ _ e2) as (n2 & _ & q2).
      constructor; [eapply wf_update; [apply (st_wf1 _ _ _ j)|eauto] |
                    eapply wf_update; [apply (st_wf2 _ _ _ j)|eauto] |
                    rewrite n1, n2; apply (st_next _ _ _ j) |].
      intros k. rewrite q1, q2, (st_node _ _ _ j).
      destruct (node_of (w_arena s1) k) as [n|]; simpl; auto.
      unfold shift_node. simpl. f_equal. f_equal.
      destruct (N.eqb_spec k i) as [->|ne].
      * rewrite N.eqb_refl. auto.
      * rewrite (proj2 (N.eqb_neq (f + k) (f + i))) by lia. auto.
    + unfold update in *. rewrite (st_node _ _ _ j) in e2.
      destruct (node_of (w_arena s1) i); discriminate.
  - destruct (update (f + i) g2 (w_arena s2)) as [a2|] eqn:e2; simpl; auto.
    unfold update in *. rewrite (st_node _ _ _ j) in e2.
    destruct (node_of (w_arena s1) i); discriminate.
Qed.

(** What [add_child] does *)
Lemma add_child_spec : forall p d (s : wst), wf (w_arena s) ->
  match add_child p d s with
  | Done c s' => c = a_next (w_arena s) /\ live (w_arena s) p /\ w_ns s' = w_ns s /\
      wf (w_arena s') /\ a_next (w_arena s') = a_next (w_arena s) + 1 /\
      forall i, node_of (w_arena s') i =
        if i =? c then Some (mkAnode (Some p) [] d)
        else match node_of (w_arena s) i with
             | Some n => Some (mkAnode (n_parent n) (n_kids n ++ (if i =? p then [c] else [])) (n_data n))
             | None => None
             end
  | Panic => ~ live (w_arena s) p
  | Fuel => False
  end.
Proof.
  intros p d s w. unfold add_child, ebind. unfold e_new. cbn [the_arena wst_arena with_arena].
  destruct (new_node d (w_arena s)) as [c a1] eqn:en.
  pose proof (wf_new _ _ _ _ w en) as w1.
  destruct (node_of_new _ _ _ _ en) as (-> & hn & sp1).
  assert (lp : forall i, live a1 i -> i <> a_next (w_arena s) -> live (w_arena s) i).
  { intros i [n h] ne. rewrite sp1 in h. apply N.eqb_neq in ne. rewrite ne in h. exists n. auto. }
  assert (lp' : forall i, live (w_arena s) i -> live a1 i /\ i <> a_next (w_arena s)).
  { intros i [n h]. assert (i < a_next (w_arena s)) by (eapply wf_fresh; eauto). split; [|lia].
    exists n. rewrite sp1. rewrite (proj2 (N.eqb_neq i _)) by lia. auto. }
  assert (nc : forall i, Up a1 i (a_next (w_arena s)) -> live a1 i -> i = a_next (w_arena s)).
  { intros i u l. remember (a_next (w_arena s)) as c. induction u as [|i n q t e eq u IH]; auto.
    assert (q = t).
    { apply IH; auto. destruct (wf_up _ w1 _ _ _ e eq) as (m & em & _). exists m; auto. }
    subst q. exfalso. destruct (wf_up _ w1 _ _ _ e eq) as (m & em & im).
    rewrite sp1 in em. subst t. rewrite N.eqb_refl in em. injection em as <-. elim im. }
  unfold e_append. cbn [the_arena wst_arena with_arena w_arena].
  destruct (append p (a_next (w_arena s)) a1) as [a2|] eqn:ea.
  - destruct (node_of_append _ _ _ _ w1 ea) as (q1 & q2 & q3 & q4 & q5 & sp2).
    assert (ne : p <> a_next (w_arena s)) by (intros ->; apply q5; constructor).
    simpl. split; auto. split; [auto|]. split; [auto|]. split; [eapply wf_append; eauto|].
    split; [congruence|].
    intros i. rewrite sp2. unfold appended. rewrite sp1.
    destruct (N.eqb_spec i (a_next (w_arena s))) as [->|ni].
    + simpl. rewrite (proj2 (N.eqb_neq (a_next (w_arena s)) p)) by auto. auto.
    + destruct (node_of (w_arena s) i) as [n|] eqn:e; auto.
      rewrite filter_none; auto. intros hi.
      destruct (wf_down _ w _ _ _ e hi) as (m & em & _). apply (wf_fresh _ w) in em. lia.
  - intros l. destruct (lp' _ l) as [l1 ne].
    destruct (append_total p (a_next (w_arena s)) a1 w1 l1) as (a2 & e).
    + exists (mkAnode None [] d). rewrite sp1, N.eqb_refl. auto.
    + intros u. apply ne. apply nc; auto.
    + congruence.
Qed.

Lemma live_shift : forall a1 a2 i, same_tree f a1 a2 -> live a2 (f + i) <-> live a1 i.
Proof.
  intros a1 a2 i j. unfold live. rewrite (st_node _ _ _ j).
  destruct (node_of a1 i); simpl; split; intros [n e]; eauto; discriminate.
Qed.

Lemma sim_child : forall p d, y_params d = [] ->
  wsim (fun c1 c2 => c2 = f + c1) (add_child p d) (add_child (f + p) d).
Proof.
  intros p d hd s1 s2 [j e].
  pose proof (add_child_spec p d s1 (st_wf1 _ _ _ j)) as h1.
  pose proof (add_child_spec (f + p) d s2 (st_wf2 _ _ _ j)) as h2.
  destruct (add_child p d s1) as [c1 t1| |], (add_child (f + p) d s2) as [c2 t2| |];
    simpl; try contradiction; auto.
  - destruct h1 as (-> & l1 & e1 & w1 & n1 & q1). destruct h2 as (-> & l2 & e2 & w2 & n2 & q2).
    split; [apply (st_next _ _ _ j)|]. split; [|congruence].
    constructor; auto.
    + rewrite n1, n2, (st_next _ _ _ j). lia.
    + intros i. rewrite q1, q2, (st_next _ _ _ j), (st_node _ _ _ j).
      destruct (N.eqb_spec i (a_next (w_arena s1))) as [->|ne].
      * rewrite N.eqb_refl. simpl. unfold shift_node, shift_sym. simpl. rewrite hd.
        destruct d; simpl in *; subst; auto.
      * rewrite (proj2 (N.eqb_neq (f + i) (f + _))) by lia.
        destruct (node_of (w_arena s1) i) as [n|]; simpl; auto. unfold shift_node. simpl.
        do 2 f_equal. rewrite map_app. f_equal.
        destruct (N.eqb_spec i p) as [->|np].
        { rewrite N.eqb_refl. auto. }
        { rewrite (proj2 (N.eqb_neq (f + i) (f + p))) by lia. auto. }
  - destruct h1 as (_ & l & _). apply h2. apply (live_shift _ _ _ j). auto.
  - destruct h2 as (_ & l & _). apply h1. apply (live_shift _ _ _ j). auto.
Qed.

Lemma sim_is : forall A (o : option A), wsim (fun x y => x = y /\ o = Some x) (eopt o) (eopt o).
Proof. intros A [x|]; [apply sim_ret; auto|]. intros s1 s2 j. simpl. auto. Qed.

Lemma make_params : forall k name r s d, make k name r s = Some d -> y_params d = [].
Proof.
  intros k name r s d e. unfold make in e.
  destruct name; [|discriminate]. destruct r; [|discriminate]. destruct s; [|discriminate].
  injection e as <-. auto.
Qed.

Ltac ss :=
  lazymatch goal with
  | |- wsim _ (ebind (add_child _ _) _) (ebind _ _) =>
      eapply sim_bind; [apply sim_child | intros ? ? ->; ss]
  | |- wsim _ (ebind (eopt (make _ _ _ _)) _) (ebind _ _) =>
      let e := fresh "em" in
      eapply sim_bind; [apply sim_is | intros ? ? [<- e]; apply make_params in e; ss]
  | |- wsim _ (ebind (eopt _) _) (ebind _ _) =>
      eapply sim_bind; [apply sim_opt | intros ? ? <-; ss]
  | |- wsim _ (ebind (eget _) _) (ebind _ _) => eapply sim_bind; [apply sim_ns | intros ? ? <-; ss]
  | |- wsim _ (ebind (e_data _) _) (ebind _ _) => eapply sim_bind; [apply sim_data | intros ? ? ->; ss]
  | |- wsim _ (ebind (e_parent _) _) (ebind _ _) =>
      eapply sim_bind; [apply sim_parent | intros ? ? ->; ss]
  | |- wsim _ (ebind (e_update _ _) _) (ebind _ _) =>
      eapply sim_bind; [ | intros ? ? _; ss]
  | |- wsim _ (ebind (eiter _ _) _) (ebind _ _) =>
      eapply sim_bind; [apply sim_iter; intros ? ?; ss | intros ? ? _; ss]
  | |- wsim _ (eret _) (eret _) => apply sim_ret
  | |- wsim _ (match ?x with _ => _ end) _ => destruct x; ss
  | |- _ => idtac
  end.

Definition same_next (o1 o2 : option N) : Prop := o2 = opt_map (N.add f) o1.

Lemma sim_visit : forall node parent,
  wsim same_next (w_visit node parent) (w_visit node (f + parent)).
Proof.
  intros node parent. destruct node; cbn [w_visit]; ss; try reflexivity; try assumption;
  try (destruct x; cbn [opt_map]); apply sim_update; intros d; try reflexivity.
  all: unfold shift_sym, with_params; simpl; rewrite map_app; reflexivity.
Qed.

Lemma sim_before : forall node, wsim eq (w_before node) (w_before node).
Proof.
  destruct node; try (apply sim_ret; reflexivity); cbn [w_before].
  - destruct node; ss; try apply sim_set_ns; auto.
  - destruct type_ref as [[]|]; ss; try apply sim_set_ns; auto.
Qed.

Lemma sim_after : forall node, wsim eq (w_after node) (w_after node).
Proof. destruct node; try (apply sim_ret; reflexivity). apply sim_set_ns. Qed.

Lemma sim_traverse : forall fuel node parent,
  wsim eq (w_traverse fuel node parent) (w_traverse fuel node (f + parent)).
Proof.
  induction fuel as [|fuel IH]; intros node parent; cbn [w_traverse]; [apply sim_fuel|].
  eapply sim_bind; [apply sim_before|]. intros _ _ _.
  eapply sim_bind; [apply sim_visit|]. intros o o' ->.
  apply (sim_bind _ _ _ _ eq); [|intros _ _ _; apply sim_after].
  destruct o as [p|]; cbn [opt_map]; [|apply sim_ret; auto].
  apply sim_iter. intros x hx. apply IH.
Qed.

End Sim.
