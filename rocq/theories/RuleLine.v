(** No message of a rule has a line break.  Machinery for C87. *)
From Coq Require Import NArith String Bool Lia Arith List.
Import ListNotations.
From Verif Require Import Text Kind Regex LexerProofs Naming ParserApi Machine TreeSpec PropParser Red Typed Rule Rules Check Process DefaultConfig RedFacts PropProcess.
From Verif Require PropFits Relaid ErrLine PropLabels.
Import PropFits (walk_invariant, W_token, within_nth_children, within_find_tokens, within_name_operand).
Import PropLabels (within_lookup, within_block_name, within_attribute_inner, within_static_id, within_name_or_call).
Local Open Scope list_scope.
Local Notation length := List.length (only parsing).

Section Lines.
  Context (root : tree).
  Hypothesis Words : forall e k, within root e -> el_kind e = k -> is_node (el_tree e) = false -> is_trivia k = false -> ErrLine.line (el_text e) = true.
  Let N (n : note) := True.
  Definition good (r : result) : Prop := ErrLine.line (rs_msg r) = true.
  Lemma marks_elem e msg : within root e -> N (mkNote (el_start e) (el_end e) msg).
  Proof. intros. exact I. Qed.
  Lemma marks_at_start e msg : within root e -> N (mkNote (el_start e) (el_start e) msg).
  Proof. intros. exact I. Qed.
  Lemma good_primary a b m n s t : ErrLine.line t = true -> N (mkNote a b m) -> good (primary_note a b m (create_result n s t)).
  Proof. intros H _. exact H. Qed.
  Lemma good_secondary a b m r : good r -> N (mkNote a b m) -> good (secondary_note a b m r).
  Proof. intros H _. exact H. Qed.
  Lemma good_add a b n m r : good r -> good (add_suggestion a b n m r).
  Proof. intros H. exact H. Qed.
  Lemma literal_line n t : within root n -> literal_name n = Some t -> ErrLine.line (el_text t) = true.
  Proof.
    intros W H. pose proof (W_token root _ _ _ W H) as Wt. unfold literal_name, support_token in H. apply find_some in H as [H K]. apply kind_eqb_eq in K.
    apply (Words t TK_WORD Wt K); [|reflexivity]. unfold child_tokens in H. apply filter_In in H as [_ H]. now apply negb_true_iff in H.
  Qed.
  Lemma operand_line o t : within root o -> operand_name o = Some t -> ErrLine.line (el_text t) = true.
  Proof.
    intros W H. unfold operand_name in H. destruct (support_child TWIG_LITERAL_NAME o) as [n|] eqn:E; [|discriminate]. exact (literal_line n t (within_support_child root _ _ _ W E) H).
  Qed.
  Lemma call_line e t : within root e -> name_or_call e = Some t -> ErrLine.line (el_text t) = true.
  Proof.
    intros W H. unfold name_or_call in H. destruct (support_child TWIG_LITERAL_NAME e) as [n|] eqn:L.
    - exact (literal_line n t (within_support_child root _ _ _ W L) H).
    - destruct (support_child TWIG_FUNCTION_CALL e) as [f|] eqn:F; cbn [obind] in H; [|discriminate].
      apply (within_support_child root _ _ _ W) in F. destruct (name_operand f) as [o|] eqn:O; cbn [obind] in H; [|discriminate].
      apply (within_support_child root _ _ _ F) in O. exact (operand_line _ _ O H).
  Qed.
  Ltac line := first [reflexivity|assumption|apply ErrLine.line_app; [line|line]].

  (** Rules for single nodes. *)
  Definition good_opt (o : option result) : Prop := match o with Some r => good r | None => True end.
  Lemma good_bind {A} (o : option A) f : (forall a, o = Some a -> good_opt (f a)) -> good_opt (obind o f).
  Proof. destruct o as [a|]; intros H; [apply H; reflexivity|exact I]. Qed.
  Lemma good_if (b : bool) x y : good_opt x -> good_opt y -> good_opt (if b then x else y).
  Proof. destruct b; auto. Qed.

  Definition good_rule (r : rule) : Prop := forall ctx e, within root e ->
    Forall good (rl_node r ctx e) /\ Forall good (rl_token r ctx e) /\
    match rl_root r ctx (root_elem root) with Done l => Forall good l | Crashed => True end.
  Lemma good_node_rule n f : (forall ctx e, within root e -> good_opt (f ctx e)) -> good_rule (node_rule n f).
  Proof.
    intros H ctx e W. specialize (H ctx e W). cbn [rl_node rl_token rl_root node_rule no_check no_root].
    destruct (f ctx e); repeat split; repeat constructor. exact H.
  Qed.

  Lemma good_ignore_file : good_rule rule_ignore_file_not_on_top.
  Proof.
    apply good_node_rule. intros ctx e W. apply good_bind. intros d D. apply (within_cast root) in D; [|exact W].
    apply good_bind. intros p _. apply good_if; [|exact I]. apply good_primary, marks_elem, D; line.
  Qed.
  Lemma good_whitespace : good_rule rule_whitespace_between_line_breaks.
  Proof.
    intros ctx e W. cbn [rl_node rl_token rl_root rule_whitespace_between_line_breaks no_check no_root].
    split; [constructor|]. split; [|constructor].
    match goal with |- Forall _ match ?x with _ => _ end => assert (H : good_opt x); [|destruct x; [constructor; [exact H|constructor]|constructor]] end.
    apply good_if; [exact I|]. apply good_bind. intros ws E1. apply good_if; [exact I|].
    apply good_bind. intros lb E2. apply good_if; [exact I|].
    apply good_add, good_primary; [line|exact I].
  Qed.

  Lemma good_line_ending : good_rule rule_line_ending.
  Proof.
    intros ctx e W. cbn [rl_node rl_token rl_root rule_line_ending no_check no_root].
    split; [constructor|]. split; [|constructor]. destruct (negb _); [constructor|].
    apply Forall_map, Forall_forall. intros m Hm.
    apply good_add, good_primary; [line|exact I].
  Qed.

  Lemma good_handle ctx x level sub : within root x -> Forall good (handle_first_token_in_line ctx x level sub).
  Proof.
    intros W. unfold handle_first_token_in_line. destruct (kind_eqb (el_kind x) TK_WHITESPACE).
    - destruct (negb _); constructor; [|constructor]. apply good_add, good_primary, marks_elem, W; line.
    - destruct (_ || _); constructor; [|constructor]. apply good_add, good_primary, marks_at_start, W; line.
  Qed.
  Lemma good_indentation : good_rule rule_indentation.
  Proof.
    intros ctx e _. cbn [rl_node rl_token rl_root rule_indentation no_check]. split; [constructor|]. split; [constructor|].
    unfold indent_root. cbn [root_elem el_tree el_off el_path].
    destruct (walk true (indent_enter ctx) (indent_leave ctx) root 0 [] _) as [s|] eqn:H; [|exact I].
    change (walk_elem true (indent_enter ctx) (indent_leave ctx) (root_elem root) (mkIndent true 0 0 false false []) = Done s) in H.
    revert H. apply (walk_invariant root true (indent_enter ctx) (indent_leave ctx) (fun s => Forall good (in_results s))).
    - intros s0 x s' b W P. unfold indent_enter. destruct (is_node (el_tree x)).
      + destruct (kind_eqb (el_kind x) ERROR); [intros [= <- <-]; exact P|].
        destruct (ignore_enter _ _ x) as [ign sk]. destruct sk; intros [= <- <-]; exact P.
      + destruct (kind_eqb (el_kind x) TK_LINE_BREAK); intros [= <- <-]; cbn [in_results]; [exact P|].
        apply Forall_app. split; [exact P|]. destruct (_ && _ && _); [apply good_handle; exact W|constructor].
    - intros s0 x s' W P. unfold indent_leave. destruct (is_node (el_tree x)); [|intros [= <-]; exact P].
      destruct (if indents _ x then _ else _); [|discriminate]. destruct (checked_sub _ _); [|discriminate].
      intros [= <-]. exact P.
    - apply within_root.
    - constructor.
  Qed.

  Lemma good_check_line_break n t new amount : (forall x, t = Some x -> within root x) ->
    Forall good (check_line_break n (t, new, amount)).
  Proof.
    intros W. unfold check_line_break. destruct t as [x|]; [|constructor]. specialize (W x eq_refl).
    destruct (kind_eqb (el_kind x) TK_LINE_BREAK).
    - destruct (negb _); constructor; [|constructor]. apply good_add, good_primary, marks_elem, W; line.
    - constructor; [|constructor]. apply good_add, good_primary, marks_at_start, W; line.
  Qed.
  Lemma good_block_line_breaks : good_rule rule_block_line_breaks.
  Proof.
    intros ctx e W. cbn [rl_node rl_token rl_root rule_block_line_breaks no_check no_root].
    split; [|split; constructor].
    assert (G : match check_block_line_breaks ctx e with Some l => Forall good l | None => True end).
    2: { destruct (check_block_line_breaks ctx e); [exact G|constructor]. }
    unfold check_block_line_breaks. destruct (cx_sensitive ctx); [exact I|].
    destruct (cast TWIG_BLOCK e) as [block|] eqn:C; cbn [obind]; [|exact I].
    apply (within_cast root) in C; [|exact W].
    match goal with |- match (if ?b then _ else _) with _ => _ end => destruct b end; [exact I|].
    destruct (starting_block block) as [st|] eqn:S; cbn [obind]; [|exact I].
    apply (within_support_child root) in S; [|exact C].
    destruct (ending_block block) as [en|] eqn:E; cbn [obind]; [|exact I].
    apply (within_support_child root) in E; [|exact C].
    cbn [flat_map]. rewrite app_nil_r. apply Forall_app. split; apply good_check_line_break; intros x Hx.
    - assert (Wp : within root match prev_sibling block with
                   | Some n => if is_comment_kind (el_kind n) then n else st | None => st end).
      { destruct (prev_sibling block) as [n|] eqn:P; [|exact S].
        destruct (is_comment_kind (el_kind n)); [exact (within_prev_sibling root _ _ C P)|exact S]. }
      exact (within_first_token root _ x Wp Hx).
    - destruct (last_token en) as [l|] eqn:L; cbn [obind] in Hx; [|discriminate].
      apply (within_last_token root) in L; [|exact E].
      destruct (next_token l) as [t|] eqn:T; cbn [obind] in Hx; [|discriminate].
      apply (within_next_token root) in T; [|exact L].
      match type of Hx with (if ?b then _ else _) = _ => destruct b end; [|discriminate]. injection Hx as <-. exact T.
  Qed.

  Lemma good_snake_case : good_rule rule_block_name_snake_case.
  Proof.
    apply good_node_rule. intros ctx e W. apply good_bind. intros s Es. apply (within_cast root) in Es; [|exact W].
    apply good_bind. intros n En. apply (W_token root _ _ _ Es) in En. apply good_if; [|exact I]. cbn zeta. cbn [good_opt].
    destruct (try_make_snake_case _ _); [apply good_add|]; apply good_primary, marks_elem, En; line.
  Qed.
  Lemma good_kebab_case : good_rule rule_attribute_name_kebab_case.
  Proof.
    apply good_node_rule. intros ctx e W. apply good_bind. intros s Es. apply (within_cast root) in Es; [|exact W].
    apply good_bind. intros n En. apply (W_token root _ _ _ Es) in En. apply good_bind. intros tag _.
    apply good_if; [exact I|]. apply good_if; [|exact I]. cbn zeta. cbn [good_opt].
    destruct (try_make_kebab_case _); [apply good_add|]; apply good_primary, marks_elem, En; line.
  Qed.
  Lemma good_logic n op shown new : ErrLine.line shown = true -> good_rule (rule_logic n op shown new).
  Proof.
    intros Hs. apply good_node_rule. intros ctx e W. apply good_bind. intros b Eb. apply (within_cast root) in Eb; [|exact W].
    apply good_bind. intros o Eo. apply (within_find_tokens root _ _ _ Eb) in Eo. apply good_if; [|exact I].
    apply good_add, good_primary, marks_elem, Eo; line.
  Qed.
  Lemma marks_trimmed e msg : within root e -> N (mkNote (fst (range_trimmed_trivia e)) (snd (range_trimmed_trivia e)) msg).
  Proof. intros. exact I. Qed.
  Lemma good_check_quotes n q str inner : within root str -> good_opt (check_quotes n q str inner).
  Proof.
    intros W. unfold check_quotes. apply good_if; [|exact I].
    destruct (range_trimmed_trivia str) as [a b] eqn:R. pose proof (fun m => marks_trimmed str m W) as M. rewrite R in M. cbn [fst snd] in M.
    cbn [good_opt]. unfold change_quotes. destruct inner as [i|]; [|apply good_primary, M; line].
    destruct (contains_char _ _); [apply good_primary, M; line|].
    destruct (opening_quote str), (closing_quote str); apply good_add, good_add, good_primary, M; line.
  Qed.
  Lemma good_twig_quotation : good_rule rule_twig_string_quotation.
  Proof.
    apply good_node_rule. intros ctx e W. apply good_bind. intros s Es. apply (within_cast root) in Es; [|exact W].
    cbn zeta. apply good_if; [exact I|]. apply good_check_quotes. exact Es.
  Qed.
  Lemma good_html_quotation : good_rule rule_html_string_quotation.
  Proof.
    apply good_node_rule. intros ctx e W. apply good_bind. intros s Es. apply (within_cast root) in Es; [|exact W].
    apply good_check_quotes. exact Es.
  Qed.
  Lemma good_hash_key : good_rule rule_hash_key_no_quotes.
  Proof.
    apply good_node_rule. intros ctx e W. apply good_bind. intros k Ek. apply (within_cast root) in Ek; [|exact W].
    apply good_bind. intros s Es. apply (within_support_child root) in Es; [|exact Ek].
    apply good_bind. intros i Ei. apply good_if; [|exact I].
    destruct (range_trimmed_trivia s) as [a b] eqn:R. pose proof (fun m => marks_trimmed s m Es) as M. rewrite R in M. cbn [fst snd] in M.
    cbn zeta. cbn [good_opt]. destruct (opening_quote s), (closing_quote s); apply good_add, good_add, good_primary, M; line.
  Qed.
  Lemma good_extends : good_rule rule_prefer_shopware_extends.
  Proof.
    apply good_node_rule. intros ctx e W. apply good_bind. intros x Ex. apply (within_cast root) in Ex; [|exact W].
    apply good_bind. intros k Ek. apply (W_token root _ _ _ Ex) in Ek.
    apply good_add, good_primary, marks_elem, Ex; line.
  Qed.
  Lemma good_same_as n op shown new : ErrLine.line shown = true -> good_rule (rule_same_as n op shown new).
  Proof.
    intros Hs. apply good_node_rule. intros ctx e W. apply good_bind. intros b Eb. apply (within_cast root) in Eb; [|exact W].
    apply good_bind. intros o Eo. apply (within_find_tokens root _ _ _ Eb) in Eo. apply good_if; [exact I|]. cbn zeta. cbn [good_opt].
    destruct (rhs_expression b); [apply good_add|]; apply good_primary, marks_elem, Eo; line.
  Qed.
  (** The duplicate rules also point to elements they have kept. *)
  Definition kept (s : dup_state) : Prop := Forall good (dp_results s) /\ Forall (fun p => within root (snd p)) (dp_table s).
  Lemma good_duplicate name enter ctx : (forall s e s' b, within root e -> enter s e = Done (s', b) -> kept s -> kept s') ->
    match duplicate_root name enter ctx (root_elem root) with Done l => Forall good l | Crashed => True end.
  Proof.
    intros HE. unfold duplicate_root. cbn [root_elem el_tree el_off el_path].
    destruct (walk false enter (duplicate_leave name) root 0 [] _) as [s|] eqn:H; [|exact I].
    change (walk_elem false enter (duplicate_leave name) (root_elem root) (mkDup [] false []) = Done s) in H.
    enough (K : kept s) by exact (proj1 K).
    revert H. apply (walk_invariant root false enter (duplicate_leave name) kept).
    - intros s0 x s' b W P H. exact (HE _ _ _ _ W H P).
    - intros s0 x s' W P [= <-]. exact P.
    - apply within_root.
    - split; constructor.
  Qed.
  Lemma good_block_duplicate : good_rule rule_block_duplicate.
  Proof.
    intros ctx e _. cbn [rl_node rl_token rl_root rule_block_duplicate no_check]. split; [constructor|]. split; [constructor|].
    apply good_duplicate. intros s x s' b W H (P & T). unfold block_duplicate_enter in H.
    destruct (ignore_enter _ _ x) as [ign sk]. destruct sk; [injection H as <- <-; split; assumption|].
    destruct ign; injection H as <- <-; [split; assumption|]. unfold block_duplicate_visit.
    destruct (cast TWIG_BLOCK x) as [k|] eqn:C; cbn [obind]; [|split; assumption].
    apply (within_cast root) in C; [|exact W].
    destruct (block_name k) as [n|] eqn:Bn; cbn [obind dp_table dp_ignored dp_results]; [|split; assumption].
    apply (within_block_name root _ _ C) in Bn. destruct (lookup (el_text n) (dp_table s)) as [b0|] eqn:L; cbn [obind].
    - apply (within_lookup root _ _ _ T) in L. destruct (block_name b0) as [f|] eqn:F.
      + apply (within_block_name root _ _ L) in F. split; [|exact T]. cbn [dp_results]. apply Forall_app. split; [exact P|].
        constructor; [|constructor]. apply good_secondary; [apply good_primary, marks_elem, Bn; line|apply marks_elem, F].
      + split; [exact P|]. constructor; [exact C|exact T].
    - split; [exact P|]. constructor; [exact C|exact T].
  Qed.
  Lemma good_duplicate_id : good_rule rule_duplicate_id.
  Proof.
    intros ctx e _. cbn [rl_node rl_token rl_root rule_duplicate_id no_check]. split; [constructor|]. split; [constructor|].
    apply good_duplicate. intros s x s' b W H (P & T). unfold duplicate_id_enter in H.
    destruct (kind_eqb (el_kind x) ERROR); [injection H as <- <-; split; assumption|].
    destruct (ignore_enter _ _ x) as [ign sk]. destruct sk; [injection H as <- <-; split; assumption|].
    destruct ign; injection H as <- <-; [split; assumption|]. unfold duplicate_id_visit.
    destruct (cast HTML_ATTRIBUTE x) as [k|] eqn:C; cbn [obind]; [|split; assumption].
    apply (within_cast root) in C; [|exact W].
    destruct (static_id k) as [n|] eqn:Bn; cbn [obind dp_table dp_ignored dp_results]; [|split; assumption].
    apply (within_static_id root _ _ C) in Bn. destruct (lookup (el_text n) (dp_table s)) as [b0|] eqn:L; cbn [obind].
    - apply (within_lookup root _ _ _ T) in L. destruct (attribute_inner b0) as [f|] eqn:F.
      + apply (within_attribute_inner root _ _ L) in F. split; [|exact T]. cbn [dp_results]. apply Forall_app. split; [exact P|].
        constructor; [|constructor]. apply good_secondary; [apply good_primary, marks_elem, Bn; line|apply marks_elem, F].
      + split; [exact P|]. constructor; [exact C|exact T].
    - split; [exact P|]. constructor; [exact C|exact T].
  Qed.
  Lemma good_json : good_rule rule_json_encode_escape_js.
  Proof.
    apply good_node_rule. intros ctx e W. apply good_bind. intros f Ef. apply (within_cast root) in Ef; [|exact W].
    apply good_bind. intros r Er. apply (within_nth_children root _ _ _ _ Ef) in Er.
    apply good_bind. intros t Et. apply (within_name_operand root _ _ Er) in Et.
    apply good_if; [exact I|]. apply good_if; [exact I|].
    apply good_add, good_primary, marks_elem, Et; line.
  Qed.
  Lemma good_naming : good_rule rule_variable_definition_naming.
  Proof.
    intros ctx e W. cbn [rl_node rl_token rl_root rule_variable_definition_naming no_check no_root].
    split; [|split; constructor]. destruct (negb _); [constructor|].
    assert (G : forall b, Forall good (check_literal_names e b)).
    { intros b. apply Forall_forall. intros r Hr. apply in_flat_map in Hr. destruct Hr as (n & Hn & Hr).
      apply (within_support_children root _ _ _ W) in Hn. destruct (literal_name n) as [t|] eqn:L; [|destruct Hr].
      apply (W_token root _ _ _ Hn) in L. apply in_app_or in Hr.
      destruct Hr as [Hr|Hr]; match type of Hr with In _ (if ?b then _ else _) => destruct b end;
        destruct Hr as [<-|[]] || destruct Hr; apply good_primary, marks_elem, L; line. }
    destruct (el_kind e); try apply G; constructor.
  Qed.
  Lemma good_valid_filter : good_rule rule_valid_filter.
  Proof.
    apply good_node_rule. intros ctx e W. apply good_bind. intros f Ef. apply (within_cast root) in Ef; [|exact W].
    apply good_bind. intros r Er. apply (within_nth_children root _ _ _ _ Ef) in Er. apply good_bind. intros t Et.
    pose proof (call_line _ _ Er Et) as Hl. apply (within_name_or_call root _ _ Er) in Et. apply good_if; [|exact I]. apply good_primary, marks_elem, Et; line.
  Qed.
  Lemma good_valid_test : good_rule rule_valid_test.
  Proof.
    apply good_node_rule. intros ctx e W. apply good_bind. intros f Ef. apply (within_cast root) in Ef; [|exact W].
    apply good_bind. intros o _. apply good_if; [exact I|]. apply good_bind. intros r Er.
    apply (within_nth_children root _ _ _ _ Ef) in Er. apply good_bind. intros t Et.
    pose proof (call_line _ _ Er Et) as Hl. apply (within_name_or_call root _ _ Er) in Et. apply good_if; [|exact I]. apply good_primary, marks_elem, Et; line.
  Qed.
  Lemma good_valid_function : good_rule rule_valid_function.
  Proof.
    apply good_node_rule. intros ctx e W. apply good_bind. intros f Ef. apply (within_cast root) in Ef; [|exact W].
    apply good_if; [exact I|]. apply good_bind. intros o Eo. apply (within_support_child root _ _ _ Ef) in Eo.
    apply good_bind. intros t Et. pose proof (operand_line _ _ Eo Et) as Hl. apply (within_name_operand root _ _ Eo) in Et.
    apply good_if; [|exact I]. apply good_primary, marks_elem, Et; line.
  Qed.
  Lemma good_definitions : Forall good_rule RULE_DEFINITIONS.
  Proof.
    unfold RULE_DEFINITIONS.
    apply Forall_cons; [exact good_ignore_file|].
    apply Forall_cons; [exact good_whitespace|].
    apply Forall_cons; [exact good_line_ending|].
    apply Forall_cons; [exact good_indentation|].
    apply Forall_cons; [exact good_block_line_breaks|].
    apply Forall_cons; [exact good_snake_case|].
    apply Forall_cons; [exact good_kebab_case|].
    apply Forall_cons; [apply good_logic; reflexivity|].
    apply Forall_cons; [apply good_logic; reflexivity|].
    apply Forall_cons; [exact good_twig_quotation|].
    apply Forall_cons; [exact good_html_quotation|].
    apply Forall_cons; [exact good_hash_key|].
    apply Forall_cons; [exact good_extends|].
    apply Forall_cons; [apply good_same_as; reflexivity|].
    apply Forall_cons; [apply good_same_as; reflexivity|].
    apply Forall_cons; [exact good_block_duplicate|].
    apply Forall_cons; [exact good_json|].
    apply Forall_cons; [exact good_duplicate_id|].
    apply Forall_cons; [exact good_naming|].
    apply Forall_cons; [exact good_valid_filter|].
    apply Forall_cons; [exact good_valid_test|].
    apply Forall_cons; [exact good_valid_function|].
    apply Forall_nil.
  Qed.

  (** Running good rules gives good results. *)
  Lemma good_run cf rules results : Forall good_rule rules -> run_rules cf rules root = Done results -> Forall good results.
  Proof.
    intros R H. unfold run_rules in H. destruct rules as [|r0 rs]; [injection H as <-; constructor|].
    remember (r0 :: rs) as rules. clear Heqrules.
    destruct (run_roots cf rules (root_elem root)) as [roots|] eqn:E; [|discriminate].
    assert (GR : Forall good roots).
    { clear H. revert roots E. induction R as [|r rules Hr R IH]; intros roots E; cbn [run_roots] in E; [injection E as <-; constructor|].
      destruct (Hr (mkCtx cf false) (root_elem root) (within_root root)) as (_ & _ & G).
      destruct (rl_root r (mkCtx cf false) (root_elem root)) as [a|]; [|discriminate].
      destruct (run_roots cf rules (root_elem root)) as [b|]; [|discriminate]. injection E as <-.
      apply Forall_app. split; [exact G|apply IH; reflexivity]. }
    destruct (run_walk cf rules root (mkRun [] false roots)) as [s|] eqn:Wk; [|discriminate]. injection H as <-.
    change (walk_elem true (run_enter cf rules) run_leave (root_elem root) (mkRun [] false roots) = Done s) in Wk.
    assert (GE : forall ign b x, within root x -> Forall good (run_element cf rules ign b x)).
    { intros ign b x W. apply Forall_forall. intros r Hr. apply in_flat_map in Hr. destruct Hr as (rl & Hrl & Hr).
      rewrite Forall_forall in R. destruct (R rl Hrl (mkCtx cf b) x W) as (G1 & G2 & _).
      destruct (mem_text (rl_name rl) ign); [destruct Hr|].
      rewrite Forall_forall in G1, G2. destruct (is_node (el_tree x)); [exact (G1 r Hr)|exact (G2 r Hr)]. }
    revert Wk. apply (walk_invariant root true (run_enter cf rules) run_leave (fun s => Forall good (ru_results s))).
    - intros s0 x s' b W P. unfold run_enter.
      assert (K : forall names, (if is_node (el_tree x)
        then if kind_eqb (el_kind x) ERROR then Done (mkRun (ru_ignored s0 ++ names) (ru_sensitive s0) (ru_results s0), true)
             else Done (mkRun (ru_ignored s0 ++ names) (if is_sensitive x then true else ru_sensitive s0)
                     (ru_results s0 ++ run_element cf rules (ru_ignored s0 ++ names) (if is_sensitive x then true else ru_sensitive s0) x), false)
        else Done (mkRun (ru_ignored s0 ++ names) (ru_sensitive s0)
                     (ru_results s0 ++ run_element cf rules (ru_ignored s0 ++ names) (ru_sensitive s0) x), false)) = Done (s', b) ->
        Forall good (ru_results s')).
      { intros names. destruct (is_node (el_tree x)); [destruct (kind_eqb (el_kind x) ERROR)|]; intros [= <- <-]; cbn [ru_results];
          [exact P| |]; (apply Forall_app; split; [exact P|apply GE; exact W]). }
      destruct (directive_before x) as [[|n l]|]; [intros [= <- <-]; exact P|apply K|apply K].
    - intros s0 x s' W P. unfold run_leave. destruct (remove_all _ _); [|discriminate]. intros [= <-]. exact P.
    - apply within_root.
    - exact GR.
  Qed.
End Lines.
