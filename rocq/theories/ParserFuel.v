(** More fuel never changes an answer: [m] and [m'] are related when they
    agree on every state on which [m] does not run out of fuel. *)

From Verif Require Import Base Token Node DocBlock Parser.

Definition fle {A} (m m' : P A) : Prop := forall s, m s = PFuel \/ m s = m' s.

Lemma fle_refl : forall A (m : P A), fle m m.
Proof. intros A m s. right. reflexivity. Qed.

Lemma fle_trans : forall A (m m' m'' : P A), fle m m' -> fle m' m'' -> fle m m''.
Proof.
  intros A m m' m'' H H' s. destruct (H s) as [E|E]; [left; exact E|].
  destruct (H' s) as [E'|E']; [left; congruence|right; congruence].
Qed.

Lemma fle_bind : forall A B (m m' : P A) (f f' : A -> P B),
  fle m m' -> (forall a, fle (f a) (f' a)) -> fle (bind m f) (bind m' f').
Proof.
  intros A B m m' f f' Hm Hf s. unfold bind. destruct (Hm s) as [E|E]; rewrite E; [left; reflexivity|].
  destruct (m' s) as [a s1|e s1| |]; auto. apply Hf.
Qed.

Lemma fle_pcatch : forall A (m m' : P A), fle m m' -> fle (pcatch m) (pcatch m').
Proof.
  intros A m m' Hm s. unfold pcatch. destruct (Hm s) as [E|E]; rewrite E; [left|right]; reflexivity.
Qed.

Lemma fle_ploop : forall A B (n n' : nat) (b b' : A -> P (A + B)) a,
  (n <= n')%nat -> (forall a, fle (b a) (b' a)) -> fle (ploop n b a) (ploop n' b' a).
Proof.
  induction n as [|n IH]; intros n' b b' a Hn Hb; [intro s; left; reflexivity|].
  destruct n' as [|n']; [inversion Hn|]. cbn [ploop]. apply fle_bind; [apply Hb|].
  intros [x|x]; [|apply fle_refl]. apply IH; [lia|exact Hb].
Qed.

Record rle (r r' : Rec) : Prop := {
  rle_expr : forall bp, fle (r_expr r bp) (r_expr r' bp);
  rle_call : fle (r_call r) (r_call r');
  rle_stmt : fle (r_stmt r) (r_stmt r');
  rle_block : fle (r_block r) (r_block r')
}.

Create HintDb fle discriminated.

Ltac fle_go :=
  lazymatch goal with
  | |- fle ?x ?x => apply fle_refl
  | |- fle (bind _ _) (bind _ _) => apply fle_bind; [fle_go | intros; fle_go]
  | |- fle (pcatch _) (pcatch _) => apply fle_pcatch; fle_go
  | |- fle (ploop _ _ _) (ploop _ _ _) => apply fle_ploop; [assumption | intros; fle_go]
  | |- fle (r_expr _ _) _ => apply rle_expr; assumption
  | |- fle (r_call _) _ => apply rle_call; assumption
  | |- fle (r_stmt _) _ => apply rle_stmt; assumption
  | |- fle (r_block _) _ => apply rle_block; assumption
  | |- fle (let x := _ in _) _ => cbv zeta; fle_go
  | |- fle (match ?x with _ => _ end) _ =>
      let E := fresh "E" in destruct x eqn:E; clear E; cbn beta iota; fle_go
  | |- _ => cbv beta zeta; solve [eauto 4 with fle nocore]
  end.

Section Fuel.
Context `{RT : Runtime}.
Variables (r r' : Rec) (n n' : nat).
Hypothesis Hr : rle r r'.
Hypothesis Hn : (n <= n')%nat.

Lemma fle_non_empty_type_ref : fle (non_empty_type_ref n) (non_empty_type_ref n').
Proof. intros. unfold non_empty_type_ref. fle_go. Qed.
#[local] Hint Resolve fle_non_empty_type_ref : fle.
Lemma fle_type_ref_list : fle (type_ref_list n) (type_ref_list n').
Proof. intros. unfold type_ref_list. fle_go. Qed.
#[local] Hint Resolve fle_type_ref_list : fle.
Lemma fle_type_ref : fle (type_ref n) (type_ref n').
Proof. intros. unfold type_ref. fle_go. Qed.
#[local] Hint Resolve fle_type_ref : fle.
Lemma fle_non_empty_namespace_ref : fle (non_empty_namespace_ref n) (non_empty_namespace_ref n').
Proof. intros. unfold non_empty_namespace_ref. fle_go. Qed.
#[local] Hint Resolve fle_non_empty_namespace_ref : fle.
Lemma fle_non_empty_type_ref_union : fle (non_empty_type_ref_union n) (non_empty_type_ref_union n').
Proof. intros. unfold non_empty_type_ref_union. fle_go. Qed.
#[local] Hint Resolve fle_non_empty_type_ref_union : fle.
Lemma fle_type_ref_union : fle (type_ref_union n) (type_ref_union n').
Proof. intros. unfold type_ref_union. fle_go. Qed.
#[local] Hint Resolve fle_type_ref_union : fle.
Lemma fle_data_type : fle (data_type n) (data_type n').
Proof. intros. unfold data_type. fle_go. Qed.
#[local] Hint Resolve fle_data_type : fle.
Lemma fle_variable : fle (variable r n) (variable r' n').
Proof. intros. unfold variable. fle_go. Qed.
#[local] Hint Resolve fle_variable : fle.
Lemma fle_global_variables : fle (global_variables r n) (global_variables r' n').
Proof. intros. unfold global_variables. fle_go. Qed.
#[local] Hint Resolve fle_global_variables : fle.
Lemma fle_static_variables : forall x2, fle (static_variables r n x2) (static_variables r' n' x2).
Proof. intros. unfold static_variables. fle_go. Qed.
#[local] Hint Resolve fle_static_variables : fle.
Lemma fle_const_item : fle (const_item r) (const_item r').
Proof. intros. unfold const_item. fle_go. Qed.
#[local] Hint Resolve fle_const_item : fle.
Lemma fle_const_statement : fle (const_statement r n) (const_statement r' n').
Proof. intros. unfold const_statement. fle_go. Qed.
#[local] Hint Resolve fle_const_statement : fle.
Lemma fle_non_empty_lexical_variables_list : fle (non_empty_lexical_variables_list n) (non_empty_lexical_variables_list n').
Proof. intros. unfold non_empty_lexical_variables_list. fle_go. Qed.
#[local] Hint Resolve fle_non_empty_lexical_variables_list : fle.
Lemma fle_attribute : fle (attribute r n) (attribute r' n').
Proof. intros. unfold attribute. fle_go. Qed.
#[local] Hint Resolve fle_attribute : fle.
Lemma fle_attributes_block : fle (attributes_block r n) (attributes_block r' n').
Proof. intros. unfold attributes_block. fle_go. Qed.
#[local] Hint Resolve fle_attributes_block : fle.
Lemma fle_array_pair : fle (array_pair r) (array_pair r').
Proof. intros. unfold array_pair. fle_go. Qed.
#[local] Hint Resolve fle_array_pair : fle.
Lemma fle_array : fle (array r n) (array r' n').
Proof. intros. unfold array. fle_go. Qed.
#[local] Hint Resolve fle_array : fle.
Lemma fle_old_array : fle (old_array r n) (old_array r' n').
Proof. intros. unfold old_array. fle_go. Qed.
#[local] Hint Resolve fle_old_array : fle.
Lemma fle_argument_type : fle (argument_type n) (argument_type n').
Proof. intros. unfold argument_type. fle_go. Qed.
#[local] Hint Resolve fle_argument_type : fle.
Lemma fle_argument_list : forall x2, fle (argument_list r n x2) (argument_list r' n' x2).
Proof. intros. unfold argument_list. fle_go. Qed.
#[local] Hint Resolve fle_argument_list : fle.
Lemma fle_return_type : fle (return_type n) (return_type n').
Proof. intros. unfold return_type. fle_go. Qed.
#[local] Hint Resolve fle_return_type : fle.
Lemma fle_anonymous_function_statement : forall x2, fle (anonymous_function_statement r n x2) (anonymous_function_statement r' n' x2).
Proof. intros. unfold anonymous_function_statement. fle_go. Qed.
#[local] Hint Resolve fle_anonymous_function_statement : fle.
Lemma fle_named_function : forall x2 x3, fle (named_function r n x2 x3) (named_function r' n' x2 x3).
Proof. intros. unfold named_function. fle_go. Qed.
#[local] Hint Resolve fle_named_function : fle.
Lemma fle_arrow_function : forall x2 x3, fle (arrow_function r n x2 x3) (arrow_function r' n' x2 x3).
Proof. intros. unfold arrow_function. fle_go. Qed.
#[local] Hint Resolve fle_arrow_function : fle.
Lemma fle_anonymous_function : forall x2 x3, fle (anonymous_function r n x2 x3) (anonymous_function r' n' x2 x3).
Proof. intros. unfold anonymous_function. fle_go. Qed.
#[local] Hint Resolve fle_anonymous_function : fle.
Lemma fle_parameters_loop : forall x2, fle (parameters_loop r n x2) (parameters_loop r' n' x2).
Proof. intros. unfold parameters_loop. fle_go. Qed.
#[local] Hint Resolve fle_parameters_loop : fle.
Lemma fle_non_empty_parameter_list : fle (non_empty_parameter_list r n) (non_empty_parameter_list r' n').
Proof. intros. unfold non_empty_parameter_list. fle_go. Qed.
#[local] Hint Resolve fle_non_empty_parameter_list : fle.
Lemma fle_parameter_list : fle (parameter_list r n) (parameter_list r' n').
Proof. intros. unfold parameter_list. fle_go. Qed.
#[local] Hint Resolve fle_parameter_list : fle.
Lemma fle_return_statement : fle (return_statement r) (return_statement r').
Proof. intros. unfold return_statement. fle_go. Qed.
#[local] Hint Resolve fle_return_statement : fle.
Lemma fle_finish_call : forall x2, fle (finish_call r n x2) (finish_call r' n' x2).
Proof. intros. unfold finish_call. fle_go. Qed.
#[local] Hint Resolve fle_finish_call : fle.
Lemma fle_init_call : forall x2, fle (init_call r n x2) (init_call r' n' x2).
Proof. intros. unfold init_call. fle_go. Qed.
#[local] Hint Resolve fle_init_call : fle.
Lemma fle_list_ : fle (list_ r n) (list_ r' n').
Proof. intros. unfold list_. fle_go. Qed.
#[local] Hint Resolve fle_list_ : fle.
Lemma fle_unset_statement : fle (unset_statement r n) (unset_statement r' n').
Proof. intros. unfold unset_statement. fle_go. Qed.
#[local] Hint Resolve fle_unset_statement : fle.
Lemma fle_die_statement : fle (die_statement r) (die_statement r').
Proof. intros. unfold die_statement. fle_go. Qed.
#[local] Hint Resolve fle_die_statement : fle.
Lemma fle_define_statement : fle (define_statement r) (define_statement r').
Proof. intros. unfold define_statement. fle_go. Qed.
#[local] Hint Resolve fle_define_statement : fle.
Lemma fle_comma_expressions : fle (comma_expressions r n) (comma_expressions r' n').
Proof. intros. unfold comma_expressions. fle_go. Qed.
#[local] Hint Resolve fle_comma_expressions : fle.
Lemma fle_echo_statement : fle (echo_statement r n) (echo_statement r' n').
Proof. intros. unfold echo_statement. fle_go. Qed.
#[local] Hint Resolve fle_echo_statement : fle.
Lemma fle_short_tag_echo_statement : fle (short_tag_echo_statement r n) (short_tag_echo_statement r' n').
Proof. intros. unfold short_tag_echo_statement. fle_go. Qed.
#[local] Hint Resolve fle_short_tag_echo_statement : fle.
Lemma fle_print_statement : fle (print_statement r) (print_statement r').
Proof. intros. unfold print_statement. fle_go. Qed.
#[local] Hint Resolve fle_print_statement : fle.
Lemma fle_identifier_list : fle (identifier_list n) (identifier_list n').
Proof. intros. unfold identifier_list. fle_go. Qed.
#[local] Hint Resolve fle_identifier_list : fle.
Lemma fle_trait_usage_alteration_group : forall x1, fle (trait_usage_alteration_group n x1) (trait_usage_alteration_group n' x1).
Proof. intros. unfold trait_usage_alteration_group. fle_go. Qed.
#[local] Hint Resolve fle_trait_usage_alteration_group : fle.
Lemma fle_trait_usages : fle (trait_usages n) (trait_usages n').
Proof. intros. unfold trait_usages. fle_go. Qed.
#[local] Hint Resolve fle_trait_usages : fle.
Lemma fle_use_trait_statement : fle (use_trait_statement n) (use_trait_statement n').
Proof. intros. unfold use_trait_statement. fle_go. Qed.
#[local] Hint Resolve fle_use_trait_statement : fle.
Lemma fle_modifiers : fle (modifiers n) (modifiers n').
Proof. intros. unfold modifiers. fle_go. Qed.
#[local] Hint Resolve fle_modifiers : fle.
Lemma fle_class_block_statement : fle (class_block_statement r n) (class_block_statement r' n').
Proof. intros. unfold class_block_statement. fle_go. Qed.
#[local] Hint Resolve fle_class_block_statement : fle.
Lemma fle_class_block : fle (class_block r n) (class_block r' n').
Proof. intros. unfold class_block. fle_go. Qed.
#[local] Hint Resolve fle_class_block : fle.
Lemma fle_class_statement : forall x2 x3 x4, fle (class_statement r n x2 x3 x4) (class_statement r' n' x2 x3 x4).
Proof. intros. unfold class_statement. fle_go. Qed.
#[local] Hint Resolve fle_class_statement : fle.
Lemma fle_abstract_class_statement : forall x2, fle (abstract_class_statement r n x2) (abstract_class_statement r' n' x2).
Proof. intros. unfold abstract_class_statement. fle_go. Qed.
#[local] Hint Resolve fle_abstract_class_statement : fle.
Lemma fle_final_class_statement : forall x2, fle (final_class_statement r n x2) (final_class_statement r' n' x2).
Proof. intros. unfold final_class_statement. fle_go. Qed.
#[local] Hint Resolve fle_final_class_statement : fle.
Lemma fle_anonymous_class : forall x2, fle (anonymous_class r n x2) (anonymous_class r' n' x2).
Proof. intros. unfold anonymous_class. fle_go. Qed.
#[local] Hint Resolve fle_anonymous_class : fle.
Lemma fle_interface : fle (interface r n) (interface r' n').
Proof. intros. unfold interface. fle_go. Qed.
#[local] Hint Resolve fle_interface : fle.
Lemma fle_trait_statement : fle (trait_statement r n) (trait_statement r' n').
Proof. intros. unfold trait_statement. fle_go. Qed.
#[local] Hint Resolve fle_trait_statement : fle.
Lemma fle_match_body : fle (match_body r n) (match_body r' n').
Proof. intros. unfold match_body. fle_go. Qed.
#[local] Hint Resolve fle_match_body : fle.
Lemma fle_primary : fle (primary r n) (primary r' n').
Proof. intros. unfold primary. fle_go. Qed.
#[local] Hint Resolve fle_primary : fle.
Lemma fle_call : fle (call r n) (call r' n').
Proof. intros. unfold call. fle_go. Qed.
#[local] Hint Resolve fle_call : fle.
Lemma fle_operator_loop : forall x2 x3, fle (operator_loop r n x2 x3) (operator_loop r' n' x2 x3).
Proof. intros. unfold operator_loop. fle_go. Qed.
#[local] Hint Resolve fle_operator_loop : fle.
Lemma fle_expression_body : forall x2, fle (expression_body r n x2) (expression_body r' n' x2).
Proof. intros. unfold expression_body. fle_go. Qed.
#[local] Hint Resolve fle_expression_body : fle.
Lemma fle_expression_statement : fle (expression_statement r) (expression_statement r').
Proof. intros. unfold expression_statement. fle_go. Qed.
#[local] Hint Resolve fle_expression_statement : fle.
Lemma fle_statements_loop : forall x2, fle (statements_loop r n x2) (statements_loop r' n' x2).
Proof. intros. unfold statements_loop. fle_go. Qed.
#[local] Hint Resolve fle_statements_loop : fle.
Lemma fle_block_body : fle (block_body r n) (block_body r' n').
Proof. intros. unfold block_body. fle_go. Qed.
#[local] Hint Resolve fle_block_body : fle.
Lemma fle_alternative_block : forall x2, fle (alternative_block r n x2) (alternative_block r' n' x2).
Proof. intros. unfold alternative_block. fle_go. Qed.
#[local] Hint Resolve fle_alternative_block : fle.
Lemma fle_alternative_block_or_statement : forall x2, fle (alternative_block_or_statement r n x2) (alternative_block_or_statement r' n' x2).
Proof. intros. unfold alternative_block_or_statement. fle_go. Qed.
#[local] Hint Resolve fle_alternative_block_or_statement : fle.
Lemma fle_inline_html : fle (inline_html r n) (inline_html r' n').
Proof. intros. unfold inline_html. fle_go. Qed.
#[local] Hint Resolve fle_inline_html : fle.
Lemma fle_if_statements : fle (if_statements r n) (if_statements r' n').
Proof. intros. unfold if_statements. fle_go. Qed.
#[local] Hint Resolve fle_if_statements : fle.
Lemma fle_if_statement : fle (if_statement r n) (if_statement r' n').
Proof. intros. unfold if_statement. fle_go. Qed.
#[local] Hint Resolve fle_if_statement : fle.
Lemma fle_case_list : fle (case_list r n) (case_list r' n').
Proof. intros. unfold case_list. fle_go. Qed.
#[local] Hint Resolve fle_case_list : fle.
Lemma fle_switch_body : fle (switch_body r n) (switch_body r' n').
Proof. intros. unfold switch_body. fle_go. Qed.
#[local] Hint Resolve fle_switch_body : fle.
Lemma fle_switch_statement : fle (switch_statement r n) (switch_statement r' n').
Proof. intros. unfold switch_statement. fle_go. Qed.
#[local] Hint Resolve fle_switch_statement : fle.
Lemma fle_for_part : forall x2, fle (for_part r n x2) (for_part r' n' x2).
Proof. intros. unfold for_part. fle_go. Qed.
#[local] Hint Resolve fle_for_part : fle.
Lemma fle_for_statement : fle (for_statement r n) (for_statement r' n').
Proof. intros. unfold for_statement. fle_go. Qed.
#[local] Hint Resolve fle_for_statement : fle.
Lemma fle_while_statement : fle (while_statement r n) (while_statement r' n').
Proof. intros. unfold while_statement. fle_go. Qed.
#[local] Hint Resolve fle_while_statement : fle.
Lemma fle_foreach_statement : fle (foreach_statement r n) (foreach_statement r' n').
Proof. intros. unfold foreach_statement. fle_go. Qed.
#[local] Hint Resolve fle_foreach_statement : fle.
Lemma fle_do_while_statement : fle (do_while_statement r) (do_while_statement r').
Proof. intros. unfold do_while_statement. fle_go. Qed.
#[local] Hint Resolve fle_do_while_statement : fle.
Lemma fle_catch_block : fle (catch_block r n) (catch_block r' n').
Proof. intros. unfold catch_block. fle_go. Qed.
#[local] Hint Resolve fle_catch_block : fle.
Lemma fle_try_catch_statement : fle (try_catch_statement r n) (try_catch_statement r' n').
Proof. intros. unfold try_catch_statement. fle_go. Qed.
#[local] Hint Resolve fle_try_catch_statement : fle.
Lemma fle_throw_statement : fle (throw_statement r) (throw_statement r').
Proof. intros. unfold throw_statement. fle_go. Qed.
#[local] Hint Resolve fle_throw_statement : fle.
Lemma fle_namespace_statement : fle (namespace_statement r n) (namespace_statement r' n').
Proof. intros. unfold namespace_statement. fle_go. Qed.
#[local] Hint Resolve fle_namespace_statement : fle.
Lemma fle_symbol_import : fle (symbol_import n) (symbol_import n').
Proof. intros. unfold symbol_import. fle_go. Qed.
#[local] Hint Resolve fle_symbol_import : fle.
Lemma fle_symbol_imports : fle (symbol_imports n) (symbol_imports n').
Proof. intros. unfold symbol_imports. fle_go. Qed.
#[local] Hint Resolve fle_symbol_imports : fle.
Lemma fle_use_function_statement : forall x1, fle (use_function_statement n x1) (use_function_statement n' x1).
Proof. intros. unfold use_function_statement. fle_go. Qed.
#[local] Hint Resolve fle_use_function_statement : fle.
Lemma fle_use_const_statement : forall x1, fle (use_const_statement n x1) (use_const_statement n' x1).
Proof. intros. unfold use_const_statement. fle_go. Qed.
#[local] Hint Resolve fle_use_const_statement : fle.
Lemma fle_use_statement : forall x1, fle (use_statement n x1) (use_statement n' x1).
Proof. intros. unfold use_statement. fle_go. Qed.
#[local] Hint Resolve fle_use_statement : fle.
Lemma fle_expression_or_label : fle (expression_or_label r n) (expression_or_label r' n').
Proof. intros. unfold expression_or_label. fle_go. Qed.
#[local] Hint Resolve fle_expression_or_label : fle.
Lemma fle_statement_in_script : fle (statement_in_script r n) (statement_in_script r' n').
Proof. intros. unfold statement_in_script. fle_go. Qed.
#[local] Hint Resolve fle_statement_in_script : fle.
Lemma fle_statement_body : fle (statement_body r n) (statement_body r' n').
Proof. intros. unfold statement_body. fle_go. Qed.
#[local] Hint Resolve fle_statement_body : fle.

End Fuel.

Section Run.
Context `{RT : Runtime}.

Lemma rle_run : forall n n', (n <= n')%nat -> rle (run n) (run n').
Proof.
  induction n as [|n IH]; intros n' Hn.
  - split; intros; intro s; left; reflexivity.
  - destruct n' as [|n']; [inversion Hn|]. assert (Hn' : (n <= n')%nat) by lia.
    specialize (IH n' Hn'). cbn [run]. split; intros; cbn [r_expr r_call r_stmt r_block].
    + apply fle_expression_body; assumption.
    + apply fle_call; assumption.
    + apply fle_statement_body; assumption.
    + apply fle_block_body; assumption.
Qed.

Lemma fle_ast_loop : forall n n', (n <= n')%nat -> fle (ast_loop n) (ast_loop n').
Proof.
  intros n n' Hn. unfold ast_loop. apply fle_statements_loop; [apply rle_run; exact Hn|exact Hn].
Qed.

Lemma ast_mono : forall n n' ts, (n <= n')%nat -> ast n ts = PFuel \/ ast n ts = ast n' ts.
Proof.
  intros n n' [|t ts] Hn; [right; reflexivity|]. unfold ast.
  destruct (fle_ast_loop n n' Hn (parser_new (t :: ts))) as [E|E]; rewrite E; [left|right]; reflexivity.
Qed.

End Run.
