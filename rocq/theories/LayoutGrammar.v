(** Every grammar function does the same on token lists that differ in white space only. *)
From Coq Require Import NArith String Bool Arith Lia List.
Import ListNotations.
From Verif Require Import Text Kind Regex Lexer LexerProofs ParserApi GrammarExpr GrammarTags GrammarHtml Machine
  TreeMachine Simulation Total Layout LayoutSim.
Local Notation length := List.length (only parsing).
Local Open Scope list_scope.
Local Open Scope prog_scope.

Create HintDb lay.
#[local] Hint Resolve lookr_at lookr_kind lookr_at_set lookr_at_end lookr_following_content lookr_following
  lookr_next_kind lookr_twig_tag lookr_termination_tag lookr_less_than_non_word lookr_html_text_end
  lookr_orb lookr_andb lookr_negb lookr_peek : lay.

Ltac crush_tok :=
  repeat match goal with
  | H : opt_tok ?o ?o' |- _ => destruct o, o'; cbn [opt_tok] in H; try contradiction
  end;
  cbn [option_map];
  repeat match goal with
  | H : same_tok ?t ?t' |- context [tk_kind ?t'] =>
      is_var t'; tryif constr_eq t t' then fail else rewrite <- (proj1 H)
  | H : same_tok ?t ?t' |- context [tk_text ?t'] =>
      is_var t'; tryif constr_eq t t' then fail else rewrite <- (proj2 H)
  end.

Ltac rel_of p :=
  match type of p with
  | prog token => uconstr:(same_tok)
  | prog (option token) => uconstr:(opt_tok)
  | _ => uconstr:(eq)
  end.

(** One step; [base] proves the parts that have a lemma. *)
Ltac ss_with base :=
  lazymatch goal with
  | |- sim _ _ _ _ (Ret _) (Ret _) _ => apply sim_ret; cbn; auto; congruence
  | |- sim _ _ _ _ (if ?b then _ else _) _ _ => destruct b
  | |- sim _ _ _ _ (match ?x with _ => _ end) _ _ => destruct x
  | |- sim _ _ _ _ (when ?b _) (when ?b _) _ => unfold when
  | |- sim _ _ _ _ (look _) (look _) _ => apply sim_look; auto 6 with lay nocore
  | |- sim _ _ _ _ (fail _) (fail _) _ => apply sim_fail
  | |- sim _ _ _ _ (@Iter _ _ (option token) _ _ _) _ _ => eapply sim_iter with (R1 := opt_tok); [intros ? [] ?|intros; crush_tok]
  | |- sim _ _ _ _ (Iter _ _ _) _ _ => eapply sim_iter with (R1 := eq); [intros ? ? ?|intros; subst]
  | |- sim _ _ _ _ (parse_many_st _ _ _) (parse_many_st _ _ _) _ => apply sim_many; [solve [auto with lay nocore]|solve [auto with lay nocore]|intros ? ? ?|intros ? ? ?]
  | |- sim _ _ _ _ (add_error_at _ _) (add_error_at _ _) _ => apply sim_add_error_at; assumption
  | |- sim _ _ _ _ (bind ?p _) (bind _ _) _ =>
      first [ eapply sim_bind with (R1 := eq); [solve [base]|intros ? ? <-; crush_tok]
            | eapply sim_bind with (R1 := same_tok); [solve [base]|intros; crush_tok]
            | eapply sim_bind with (R1 := opt_tok); [solve [base]|intros; crush_tok]
            | lazymatch type of p with
              | prog token => eapply sim_bind with (R1 := same_tok)
              | prog (option token) => eapply sim_bind with (R1 := opt_tok)
              | _ => eapply sim_bind with (R1 := eq)
              end; [|intros; subst; crush_tok] ]
  | |- sim _ _ _ _ _ _ _ => solve [base]
  end.

Section Api.
  Context (dbg : bool) (T T' : list token) (HT : T <> []) (HT' : T' <> []).
  Context (BT : forall t, In t T -> is_trivia (tk_kind t) = true -> blank t)
          (BT' : forall t, In t T' -> is_trivia (tk_kind t) = true -> blank t).
  Notation sim := (sim dbg T T').

  Hint Extern 1 (LayoutSim.sim _ _ _ _ bump bump _) => apply (sim_bump_as dbg T T' BT BT') : lay.
  Hint Extern 1 (LayoutSim.sim _ _ _ _ (bump_site _) (bump_site _) _) => apply (sim_bump_as dbg T T' BT BT') : lay.
  Hint Extern 1 (LayoutSim.sim _ _ _ _ (bump_as _) (bump_as _) _) => apply (sim_bump_as dbg T T' BT BT') : lay.
  Hint Extern 1 (LayoutSim.sim _ _ _ _ (debug_assert _) (debug_assert _) _) => apply sim_dassert; auto 6 with lay nocore : lay.
  Hint Extern 1 (LayoutSim.sim _ _ _ _ (debug_assert_site _ _) (debug_assert_site _ _) _) => apply sim_dassert; auto 6 with lay nocore : lay.
  Hint Extern 1 (LayoutSim.sim _ _ _ _ (look _) (look _) _) => apply sim_look; auto 6 with lay nocore : lay.
  Hint Extern 1 (LayoutSim.sim _ _ _ _ (at_ _) (at_ _) _) => apply sim_look; apply lookr_at : lay.
  Hint Extern 1 (LayoutSim.sim _ _ _ _ (at_set _) (at_set _) _) => apply sim_look; apply lookr_at_set : lay.
  Hint Extern 1 (LayoutSim.sim _ _ _ _ (at_following _) (at_following _) _) => apply sim_look; apply lookr_following : lay.
  Hint Extern 1 (LayoutSim.sim _ _ _ _ (at_following_content _) (at_following_content _) _) => apply sim_look; apply lookr_following_content : lay.
  Hint Extern 1 (LayoutSim.sim _ _ _ _ (at_twig_tag _) (at_twig_tag _) _) => apply sim_look; apply lookr_twig_tag : lay.
  Hint Extern 1 (LayoutSim.sim _ _ _ _ at_twig_termination_tag at_twig_termination_tag _) => apply sim_look; apply lookr_termination_tag : lay.
  Hint Extern 1 (LayoutSim.sim _ _ _ _ at_twig_block_open at_twig_block_open _) => apply sim_look; apply lookr_at_set : lay.
  Hint Extern 1 (LayoutSim.sim _ _ _ _ at_twig_block_close at_twig_block_close _) => apply sim_look; apply lookr_at_set : lay.
  Hint Extern 1 (LayoutSim.sim _ _ _ _ at_twig_var_open at_twig_var_open _) => apply sim_look; apply lookr_at_set : lay.
  Hint Extern 1 (LayoutSim.sim _ _ _ _ at_twig_comment_open at_twig_comment_open _) => apply sim_look; apply lookr_at_set : lay.
  Hint Extern 1 (LayoutSim.sim _ _ _ _ at_end at_end _) => apply sim_look; apply lookr_at_end : lay.
  Hint Extern 1 (LayoutSim.sim _ _ _ _ peek_token peek_token _) => apply sim_look; apply lookr_peek : lay.
  Hint Resolve sim_trivia sim_start sim_complete sim_precede sim_add_error sim_add_error_t : lay.
  Hint Resolve HT HT' BT BT' : lay.

  Ltac ss := ss_with ltac:(auto with lay nocore).
  Ltac sgo := repeat ss.

  Lemma y_recover_expect : forall n ex set, sim n (recover_expect ex set) (recover_expect ex set) opt_tok.
  Proof.
    intros n ex set. unfold recover_expect. sgo.
  Qed.
  Hint Resolve y_recover_expect : lay.

  Lemma y_recover : forall n set, sim n (recover set) (recover set) eq.
  Proof. intros n set. unfold recover. sgo.
  Qed.

  Lemma y_display : forall n k, sim n (display k) (display k) eq.
  Proof. intros n k. unfold display. sgo.
  Qed.
  Hint Resolve y_recover y_display : lay.

  Lemma y_expect : forall n k set, sim n (expect k set) (expect k set) opt_tok.
  Proof. intros n k set. unfold expect. sgo.
  Qed.

  Lemma y_display_or : forall n ks, sim n (display_or ks) (display_or ks) eq.
  Proof.
    intros n ks. induction ks as [|k ks IH]; [now apply sim_ret|]. cbn [display_or]. destruct ks; [ss|].
    ss. eapply sim_bind with (R1 := eq); [exact IH|]. intros ? ? <-. ss.
  Qed.
  Hint Resolve y_expect y_display_or : lay.

  Lemma y_expect_any : forall n ks set, sim n (expect_any ks set) (expect_any ks set) opt_tok.
  Proof. intros n ks set. unfold expect_any. sgo.
  Qed.

  Lemma y_many : forall n (early early' : prog bool) (child child' : prog unit),
    (forall m, m <= n -> sim m early early' eq) -> (forall m, m <= n -> sim m child child' eq) ->
    sim n (parse_many early child) (parse_many early' child') eq.
  Proof.
    intros n early early' child child' He Hc. unfold parse_many. apply sim_many; auto.
    intros m x Hm. eapply sim_bind with (R1 := eq); [auto|]. intros ? ? <-. now apply sim_ret.
  Qed.
End Api.


Lemma sb_blank_heads : forall u u' q q', same_but_blanks (u :: q) (u' :: q') -> is_trivia (tk_kind u) = true ->
  blank u /\ blank u'.
Proof.
  intros u u' q q' H Hu. inversion H as [g g' G G' Hg Eg Eg'|g g' t1 t1' r r' G G' Hg Hk1 Hs1 Hr Eg Eg']; subst.
  - inversion G. inversion G'. auto.
  - destruct g as [|b g]; cbn [app] in Eg; [injection Eg as -> ->; congruence|].
    destruct g' as [|b' g']; [discriminate Hg|]. injection Eg as -> _. injection Eg' as -> _.
    inversion G. inversion G'. auto.
Qed.

Section Grammar.
  Context (dbg : bool) (T T' : list token) (HT : T <> []) (HT' : T' <> []).
  Context (BT : forall t, In t T -> is_trivia (tk_kind t) = true -> blank t)
          (BT' : forall t, In t T' -> is_trivia (tk_kind t) = true -> blank t).
  Notation sim := (sim dbg T T').
  Context (N : nat) (HC : forall m c, m < N -> sim m (body c) (body c) eq).

  Hint Extern 1 (LayoutSim.sim _ _ _ _ bump bump _) => apply (sim_bump_as dbg T T' BT BT') : lay.
  Hint Extern 1 (LayoutSim.sim _ _ _ _ (bump_site _) (bump_site _) _) => apply (sim_bump_as dbg T T' BT BT') : lay.
  Hint Extern 1 (LayoutSim.sim _ _ _ _ (bump_as _) (bump_as _) _) => apply (sim_bump_as dbg T T' BT BT') : lay.
  Hint Extern 1 (LayoutSim.sim _ _ _ _ (debug_assert _) (debug_assert _) _) => apply sim_dassert; auto 6 with lay nocore : lay.
  Hint Extern 1 (LayoutSim.sim _ _ _ _ (debug_assert_site _ _) (debug_assert_site _ _) _) => apply sim_dassert; auto 6 with lay nocore : lay.
  Hint Extern 1 (LayoutSim.sim _ _ _ _ (look _) (look _) _) => apply sim_look; auto 6 with lay nocore : lay.
  Hint Extern 1 (LayoutSim.sim _ _ _ _ (at_ _) (at_ _) _) => apply sim_look; apply lookr_at : lay.
  Hint Extern 1 (LayoutSim.sim _ _ _ _ (at_set _) (at_set _) _) => apply sim_look; apply lookr_at_set : lay.
  Hint Extern 1 (LayoutSim.sim _ _ _ _ (at_following _) (at_following _) _) => apply sim_look; apply lookr_following : lay.
  Hint Extern 1 (LayoutSim.sim _ _ _ _ (at_following_content _) (at_following_content _) _) => apply sim_look; apply lookr_following_content : lay.
  Hint Extern 1 (LayoutSim.sim _ _ _ _ (at_twig_tag _) (at_twig_tag _) _) => apply sim_look; apply lookr_twig_tag : lay.
  Hint Extern 1 (LayoutSim.sim _ _ _ _ at_twig_termination_tag at_twig_termination_tag _) => apply sim_look; apply lookr_termination_tag : lay.
  Hint Extern 1 (LayoutSim.sim _ _ _ _ at_twig_block_open at_twig_block_open _) => apply sim_look; apply lookr_at_set : lay.
  Hint Extern 1 (LayoutSim.sim _ _ _ _ at_twig_block_close at_twig_block_close _) => apply sim_look; apply lookr_at_set : lay.
  Hint Extern 1 (LayoutSim.sim _ _ _ _ at_twig_var_open at_twig_var_open _) => apply sim_look; apply lookr_at_set : lay.
  Hint Extern 1 (LayoutSim.sim _ _ _ _ at_twig_comment_open at_twig_comment_open _) => apply sim_look; apply lookr_at_set : lay.
  Hint Extern 1 (LayoutSim.sim _ _ _ _ at_end at_end _) => apply sim_look; apply lookr_at_end : lay.
  Hint Extern 1 (LayoutSim.sim _ _ _ _ peek_token peek_token _) => apply sim_look; apply lookr_peek : lay.
  Hint Resolve sim_trivia sim_start sim_complete sim_precede sim_add_error sim_add_error_t : lay.
  Hint Resolve HT HT' BT BT' : lay.

  Hint Resolve y_recover_expect y_recover y_expect y_expect_any y_display y_display_or : lay.
  Hint Extern 2 (_ <= _) => lia : lay.
  Lemma y_call : forall (A : Set) n c (k k' : option nat -> prog A) (R : A -> A -> Prop), n <= N ->
    (forall a, sim n (k a) (k' a) R) -> sim n (Call c k) (Call c k') R.
  Proof. intros A n c k k' R Hn Hk. apply sim_call; [|exact Hk]. intros. apply HC. lia.
  Qed.
  Ltac sx :=
    lazymatch goal with
    | |- LayoutSim.sim _ _ _ _ (Call _ _) (Call _ _) _ => apply y_call; [lia|intros ?]
    | |- LayoutSim.sim _ _ _ _ (parse_many _ _) (parse_many _ _) _ => apply y_many; [assumption..|intros ? ?|intros ? ?]
    | |- _ => idtac
    end.
  Ltac ss := ss_with ltac:(auto with lay nocore).
  Ltac sgo := repeat (progress sx || ss).


  Lemma y_parse_twig_expression_binding_power : forall n (bp : nat), n <= N ->
    sim n (parse_twig_expression_binding_power bp) (parse_twig_expression_binding_power bp) eq.
  Proof. intros. unfold parse_twig_expression_binding_power. sgo.
  Qed.
  Hint Resolve y_parse_twig_expression_binding_power : lay.
  Lemma y_parse_twig_expression : forall n, n <= N ->
    sim n (parse_twig_expression) (parse_twig_expression) eq.
  Proof. intros. unfold parse_twig_expression. sgo.
  Qed.
  Hint Resolve y_parse_twig_expression : lay.
  Lemma y_parse_twig_name : forall n, n <= N ->
    sim n (parse_twig_name) (parse_twig_name) eq.
  Proof. intros. unfold parse_twig_name. sgo.
  Qed.
  Hint Resolve y_parse_twig_name : lay.
  Lemma y_parse_twig_number : forall n, n <= N ->
    sim n (parse_twig_number) (parse_twig_number) eq.
  Proof. intros. unfold parse_twig_number. sgo.
  Qed.
  Hint Resolve y_parse_twig_number : lay.
  Lemma y_parse_twig_null : forall n, n <= N ->
    sim n (parse_twig_null) (parse_twig_null) eq.
  Proof. intros. unfold parse_twig_null. sgo.
  Qed.
  Hint Resolve y_parse_twig_null : lay.
  Lemma y_parse_twig_boolean : forall n, n <= N ->
    sim n (parse_twig_boolean) (parse_twig_boolean) eq.
  Proof. intros. unfold parse_twig_boolean. sgo.
  Qed.
  Hint Resolve y_parse_twig_boolean : lay.
  Lemma y_twig_string_child : forall n (quote_kind : kind) (interpolation_allowed : bool), n <= N ->
    sim n (twig_string_child quote_kind interpolation_allowed) (twig_string_child quote_kind interpolation_allowed) eq.
  Proof. intros. unfold twig_string_child. sgo.
  Qed.
  Hint Resolve y_twig_string_child : lay.
  Lemma y_parse_twig_string : forall n (interpolation_allowed : bool), n <= N ->
    sim n (parse_twig_string interpolation_allowed) (parse_twig_string interpolation_allowed) eq.
  Proof. intros. unfold parse_twig_string. sgo.
  Qed.
  Hint Resolve y_parse_twig_string : lay.
  Lemma y_parse_twig_array : forall n, n <= N ->
    sim n (parse_twig_array) (parse_twig_array) eq.
  Proof. intros. unfold parse_twig_array. sgo.
  Qed.
  Hint Resolve y_parse_twig_array : lay.
  Lemma y_parse_twig_hash_key : forall n, n <= N ->
    sim n (parse_twig_hash_key) (parse_twig_hash_key) eq.
  Proof. intros. unfold parse_twig_hash_key. sgo.
  Qed.
  Hint Resolve y_parse_twig_hash_key : lay.
  Lemma y_parse_twig_hash_pair : forall n, n <= N ->
    sim n (parse_twig_hash_pair) (parse_twig_hash_pair) eq.
  Proof. intros. unfold parse_twig_hash_pair. sgo.
  Qed.
  Hint Resolve y_parse_twig_hash_pair : lay.
  Lemma y_parse_twig_hash : forall n, n <= N ->
    sim n (parse_twig_hash) (parse_twig_hash) eq.
  Proof. intros. unfold parse_twig_hash. sgo.
  Qed.
  Hint Resolve y_parse_twig_hash : lay.
  Lemma y_parse_twig_function_argument : forall n, n <= N ->
    sim n (parse_twig_function_argument) (parse_twig_function_argument) eq.
  Proof. intros. unfold parse_twig_function_argument. sgo.
  Qed.
  Hint Resolve y_parse_twig_function_argument : lay.
  Lemma y_parse_arguments : forall n (closing : list kind), n <= N ->
    sim n (parse_arguments closing) (parse_arguments closing) eq.
  Proof. intros. unfold parse_arguments. sgo.
  Qed.
  Hint Resolve y_parse_arguments : lay.
  Lemma y_parse_twig_filter : forall n (last_node : nat), n <= N ->
    sim n (parse_twig_filter last_node) (parse_twig_filter last_node) eq.
  Proof. intros. unfold parse_twig_filter. sgo.
  Qed.
  Hint Resolve y_parse_twig_filter : lay.
  Lemma y_parse_twig_indexer : forall n (last_node : nat), n <= N ->
    sim n (parse_twig_indexer last_node) (parse_twig_indexer last_node) eq.
  Proof. intros. unfold parse_twig_indexer. sgo.
  Qed.
  Hint Resolve y_parse_twig_indexer : lay.
  Lemma y_parse_twig_function : forall n (last_node : nat), n <= N ->
    sim n (parse_twig_function last_node) (parse_twig_function last_node) eq.
  Proof. intros. unfold parse_twig_function. sgo.
  Qed.
  Hint Resolve y_parse_twig_function : lay.
  Lemma y_parse_twig_accessor : forall n (last_node : nat), n <= N ->
    sim n (parse_twig_accessor last_node) (parse_twig_accessor last_node) eq.
  Proof. intros. unfold parse_twig_accessor. sgo.
  Qed.
  Hint Resolve y_parse_twig_accessor : lay.
  Lemma y_parse_twig_test_implicit_argument : forall n (last_node : nat), n <= N ->
    sim n (parse_twig_test_implicit_argument last_node) (parse_twig_test_implicit_argument last_node) eq.
  Proof. intros. unfold parse_twig_test_implicit_argument. sgo.
  Qed.
  Hint Resolve y_parse_twig_test_implicit_argument : lay.
  Lemma y_parse_twig_arrow_function : forall n (last_node : nat), n <= N ->
    sim n (parse_twig_arrow_function last_node) (parse_twig_arrow_function last_node) eq.
  Proof. intros. unfold parse_twig_arrow_function. sgo.
  Qed.
  Hint Resolve y_parse_twig_arrow_function : lay.
  Lemma y_parse_postfix_operators : forall n (node : nat), n <= N ->
    sim n (parse_postfix_operators node) (parse_postfix_operators node) eq.
  Proof. intros. unfold parse_postfix_operators. sgo.
  Qed.
  Hint Resolve y_parse_postfix_operators : lay.
  Lemma y_parse_twig_literal : forall n, n <= N ->
    sim n (parse_twig_literal) (parse_twig_literal) eq.
  Proof. intros. unfold parse_twig_literal. sgo.
  Qed.
  Hint Resolve y_parse_twig_literal : lay.
  Lemma y_parse_conditional_expression : forall n (lhs : nat), n <= N ->
    sim n (parse_conditional_expression lhs) (parse_conditional_expression lhs) eq.
  Proof. intros. unfold parse_conditional_expression. sgo.
  Qed.
  Hint Resolve y_parse_conditional_expression : lay.
  Lemma y_binary_loop : forall n (minimum_binding_power : nat) (lhs : nat), n <= N ->
    sim n (binary_loop minimum_binding_power lhs) (binary_loop minimum_binding_power lhs) eq.
  Proof. intros. unfold binary_loop. sgo.
  Qed.
  Hint Resolve y_binary_loop : lay.
  Lemma y_parse_twig_expression_binding_power_rhs : forall n (minimum_binding_power : nat) (lhs : nat), n <= N ->
    sim n (parse_twig_expression_binding_power_rhs minimum_binding_power lhs) (parse_twig_expression_binding_power_rhs minimum_binding_power lhs) eq.
  Proof. intros. unfold parse_twig_expression_binding_power_rhs. sgo.
  Qed.
  Hint Resolve y_parse_twig_expression_binding_power_rhs : lay.
  Lemma y_parse_paren_expression : forall n, n <= N ->
    sim n (parse_paren_expression) (parse_paren_expression) eq.
  Proof. intros. unfold parse_paren_expression. sgo.
  Qed.
  Hint Resolve y_parse_paren_expression : lay.
  Lemma y_parse_paren_arrow_function : forall n (m : nat), n <= N ->
    sim n (parse_paren_arrow_function m) (parse_paren_arrow_function m) eq.
  Proof. intros. unfold parse_paren_arrow_function. sgo.
  Qed.
  Hint Resolve y_parse_paren_arrow_function : lay.
  Lemma y_parse_unary_expression : forall n, n <= N ->
    sim n (parse_unary_expression) (parse_unary_expression) eq.
  Proof. intros. unfold parse_unary_expression. sgo.
  Qed.
  Hint Resolve y_parse_unary_expression : lay.
  Lemma y_parse_twig_expression_lhs : forall n, n <= N ->
    sim n (parse_twig_expression_lhs) (parse_twig_expression_lhs) eq.
  Proof. intros. unfold parse_twig_expression_lhs. sgo.
  Qed.
  Hint Resolve y_parse_twig_expression_lhs : lay.
  Lemma y_body_expression : forall n (minimum_binding_power : nat), n <= N ->
    sim n (body_expression minimum_binding_power) (body_expression minimum_binding_power) eq.
  Proof. intros. unfold body_expression. sgo.
  Qed.
  Hint Resolve y_body_expression : lay.
  Lemma y_call_child : forall n (f : pfun), n <= N ->
    sim n (call_child f) (call_child f) eq.
  Proof. intros. unfold call_child. sgo.
  Qed.
  Hint Resolve y_call_child : lay.
  Lemma y_parse_body : forall n early early' (child : pfun), n <= N -> (forall m, m <= n -> sim m early early' eq) -> sim n (parse_body early child) (parse_body early' child) eq.
  Proof. intros. unfold parse_body. sgo.
  Qed.
  Hint Resolve y_parse_body : lay.

  Ltac sx2 :=
    lazymatch goal with
    | |- LayoutSim.sim _ _ _ _ (parse_body _ _) (parse_body _ _) _ => apply y_parse_body; [lia|intros ? ?]
    | |- _ => sx
    end.
  Ltac sgo ::= repeat (progress sx2 || ss).
  Lemma y_parse_ending : forall n (kw : kind) (r1 r2 r3 : list kind) (node : kind), n <= N ->
    sim n (parse_ending kw r1 r2 r3 node) (parse_ending kw r1 r2 r3 node) eq.
  Proof. intros. unfold parse_ending. sgo.
  Qed.
  Hint Resolve y_parse_ending : lay.
  Lemma y_expression_or : forall n (msg : string) (set : list kind), n <= N ->
    sim n (expression_or msg set) (expression_or msg set) eq.
  Proof. intros. unfold expression_or. sgo.
  Qed.
  Hint Resolve y_expression_or : lay.
  Lemma y_name_or : forall n (msg : string) (set : list kind), n <= N ->
    sim n (name_or msg set) (name_or msg set) eq.
  Proof. intros. unfold name_or. sgo.
  Qed.
  Hint Resolve y_name_or : lay.
  Lemma y_string_or : forall n (msg : string) (set : list kind), n <= N ->
    sim n (string_or msg set) (string_or msg set) eq.
  Proof. intros. unfold string_or. sgo.
  Qed.
  Hint Resolve y_string_or : lay.
  Lemma y_opt_bump : forall n (k : kind), n <= N ->
    sim n (opt_bump k) (opt_bump k) eq.
  Proof. intros. unfold opt_bump. sgo.
  Qed.
  Hint Resolve y_opt_bump : lay.
  Lemma y_parse_twig_cache : forall n (outer : nat) (child : pfun), n <= N ->
    sim n (parse_twig_cache outer child) (parse_twig_cache outer child) eq.
  Proof. intros. unfold parse_twig_cache. sgo.
  Qed.
  Hint Resolve y_parse_twig_cache : lay.
  Lemma y_parse_twig_with : forall n (outer : nat) (child : pfun), n <= N ->
    sim n (parse_twig_with outer child) (parse_twig_with outer child) eq.
  Proof. intros. unfold parse_twig_with. sgo.
  Qed.
  Hint Resolve y_parse_twig_with : lay.
  Lemma y_parse_end_name : forall n (what : string) (name : option text), n <= N ->
    sim n (parse_end_name what name) (parse_end_name what name) eq.
  Proof. intros. unfold parse_end_name. sgo.
  Qed.
  Hint Resolve y_parse_end_name : lay.
  Lemma y_parse_twig_macro : forall n (outer : nat) (child : pfun), n <= N ->
    sim n (parse_twig_macro outer child) (parse_twig_macro outer child) eq.
  Proof. intros. unfold parse_twig_macro. sgo.
  Qed.
  Hint Resolve y_parse_twig_macro : lay.
  Lemma y_parse_twig_verbatim : forall n (outer : nat) (child : pfun), n <= N ->
    sim n (parse_twig_verbatim outer child) (parse_twig_verbatim outer child) eq.
  Proof. intros. unfold parse_twig_verbatim. sgo.
  Qed.
  Hint Resolve y_parse_twig_verbatim : lay.
  Lemma y_parse_twig_sandbox : forall n (outer : nat) (child : pfun), n <= N ->
    sim n (parse_twig_sandbox outer child) (parse_twig_sandbox outer child) eq.
  Proof. intros. unfold parse_twig_sandbox. sgo.
  Qed.
  Hint Resolve y_parse_twig_sandbox : lay.
  Lemma y_parse_twig_flush : forall n (outer : nat), n <= N ->
    sim n (parse_twig_flush outer) (parse_twig_flush outer) eq.
  Proof. intros. unfold parse_twig_flush. sgo.
  Qed.
  Hint Resolve y_parse_twig_flush : lay.
  Lemma y_parse_twig_do : forall n (outer : nat), n <= N ->
    sim n (parse_twig_do outer) (parse_twig_do outer) eq.
  Proof. intros. unfold parse_twig_do. sgo.
  Qed.
  Hint Resolve y_parse_twig_do : lay.
  Lemma y_parse_twig_deprecated : forall n (outer : nat), n <= N ->
    sim n (parse_twig_deprecated outer) (parse_twig_deprecated outer) eq.
  Proof. intros. unfold parse_twig_deprecated. sgo.
  Qed.
  Hint Resolve y_parse_twig_deprecated : lay.
  Lemma y_parse_twig_autoescape : forall n (outer : nat) (child : pfun), n <= N ->
    sim n (parse_twig_autoescape outer child) (parse_twig_autoescape outer child) eq.
  Proof. intros. unfold parse_twig_autoescape. sgo.
  Qed.
  Hint Resolve y_parse_twig_autoescape : lay.
  Lemma y_parse_twig_apply : forall n (outer : nat) (child : pfun), n <= N ->
    sim n (parse_twig_apply outer child) (parse_twig_apply outer child) eq.
  Proof. intros. unfold parse_twig_apply. sgo.
  Qed.
  Hint Resolve y_parse_twig_apply : lay.
  Lemma y_parse_twig_import : forall n (outer : nat), n <= N ->
    sim n (parse_twig_import outer) (parse_twig_import outer) eq.
  Proof. intros. unfold parse_twig_import. sgo.
  Qed.
  Hint Resolve y_parse_twig_import : lay.
  Lemma y_parse_name_as_name_override : forall n (expected_description : string), n <= N ->
    sim n (parse_name_as_name_override expected_description) (parse_name_as_name_override expected_description) eq.
  Proof. intros. unfold parse_name_as_name_override. sgo.
  Qed.
  Hint Resolve y_parse_name_as_name_override : lay.
  Lemma y_parse_overrides : forall n (desc : string), n <= N ->
    sim n (parse_overrides desc) (parse_overrides desc) eq.
  Proof. intros. unfold parse_overrides. sgo.
  Qed.
  Hint Resolve y_parse_overrides : lay.
  Lemma y_parse_twig_from : forall n (outer : nat), n <= N ->
    sim n (parse_twig_from outer) (parse_twig_from outer) eq.
  Proof. intros. unfold parse_twig_from. sgo.
  Qed.
  Hint Resolve y_parse_twig_from : lay.
  Lemma y_parse_twig_use : forall n (outer : nat), n <= N ->
    sim n (parse_twig_use outer) (parse_twig_use outer) eq.
  Proof. intros. unfold parse_twig_use. sgo.
  Qed.
  Hint Resolve y_parse_twig_use : lay.
  Lemma y_parse_include_with : forall n (set : list kind), n <= N ->
    sim n (parse_include_with set) (parse_include_with set) eq.
  Proof. intros. unfold parse_include_with. sgo.
  Qed.
  Hint Resolve y_parse_include_with : lay.
  Lemma y_parse_twig_embed : forall n (outer : nat) (child : pfun), n <= N ->
    sim n (parse_twig_embed outer child) (parse_twig_embed outer child) eq.
  Proof. intros. unfold parse_twig_embed. sgo.
  Qed.
  Hint Resolve y_parse_twig_embed : lay.
  Lemma y_parse_twig_include : forall n (outer : nat), n <= N ->
    sim n (parse_twig_include outer) (parse_twig_include outer) eq.
  Proof. intros. unfold parse_twig_include. sgo.
  Qed.
  Hint Resolve y_parse_twig_include : lay.
  Lemma y_parse_twig_extends : forall n (outer : nat), n <= N ->
    sim n (parse_twig_extends outer) (parse_twig_extends outer) eq.
  Proof. intros. unfold parse_twig_extends. sgo.
  Qed.
  Hint Resolve y_parse_twig_extends : lay.
  Lemma y_parse_twig_for : forall n (outer : nat) (child : pfun), n <= N ->
    sim n (parse_twig_for outer child) (parse_twig_for outer child) eq.
  Proof. intros. unfold parse_twig_for. sgo.
  Qed.
  Hint Resolve y_parse_twig_for : lay.
  Lemma y_parse_set_assignment : forall n, n <= N ->
    sim n (parse_set_assignment) (parse_set_assignment) eq.
  Proof. intros. unfold parse_set_assignment. sgo.
  Qed.
  Hint Resolve y_parse_set_assignment : lay.
  Lemma y_parse_twig_set : forall n (outer : nat) (child : pfun), n <= N ->
    sim n (parse_twig_set outer child) (parse_twig_set outer child) eq.
  Proof. intros. unfold parse_twig_set. sgo.
  Qed.
  Hint Resolve y_parse_twig_set : lay.
  Lemma y_parse_twig_block : forall n (outer : nat) (child : pfun), n <= N ->
    sim n (parse_twig_block outer child) (parse_twig_block outer child) eq.
  Proof. intros. unfold parse_twig_block. sgo.
  Qed.
  Hint Resolve y_parse_twig_block : lay.
  Lemma y_parse_if_branches : forall n (child : pfun), n <= N ->
    sim n (parse_if_branches child) (parse_if_branches child) eq.
  Proof. intros. unfold parse_if_branches. sgo.
  Qed.
  Hint Resolve y_parse_if_branches : lay.
  Lemma y_parse_twig_if : forall n (outer : nat) (child : pfun), n <= N ->
    sim n (parse_twig_if outer child) (parse_twig_if outer child) eq.
  Proof. intros. unfold parse_twig_if. sgo.
  Qed.
  Hint Resolve y_parse_twig_if : lay.
  Lemma y_parse_twig_trans : forall n (outer : nat) (child : pfun), n <= N ->
    sim n (parse_twig_trans outer child) (parse_twig_trans outer child) eq.
  Proof. intros. unfold parse_twig_trans. sgo.
  Qed.
  Hint Resolve y_parse_twig_trans : lay.
  Lemma y_parse_twig_props : forall n (outer : nat), n <= N ->
    sim n (parse_twig_props outer) (parse_twig_props outer) eq.
  Proof. intros. unfold parse_twig_props. sgo.
  Qed.
  Hint Resolve y_parse_twig_props : lay.
  Lemma y_parse_twig_component : forall n (outer : nat) (child : pfun), n <= N ->
    sim n (parse_twig_component outer child) (parse_twig_component outer child) eq.
  Proof. intros. unfold parse_twig_component. sgo.
  Qed.
  Hint Resolve y_parse_twig_component : lay.
  Lemma y_parse_twig_sw_thumbnails : forall n (outer : nat), n <= N ->
    sim n (parse_twig_sw_thumbnails outer) (parse_twig_sw_thumbnails outer) eq.
  Proof. intros. unfold parse_twig_sw_thumbnails. sgo.
  Qed.
  Hint Resolve y_parse_twig_sw_thumbnails : lay.
  Lemma y_parse_twig_sw_icon : forall n (outer : nat), n <= N ->
    sim n (parse_twig_sw_icon outer) (parse_twig_sw_icon outer) eq.
  Proof. intros. unfold parse_twig_sw_icon. sgo.
  Qed.
  Hint Resolve y_parse_twig_sw_icon : lay.
  Lemma y_parse_twig_sw_return : forall n (outer : nat), n <= N ->
    sim n (parse_twig_sw_return outer) (parse_twig_sw_return outer) eq.
  Proof. intros. unfold parse_twig_sw_return. sgo.
  Qed.
  Hint Resolve y_parse_twig_sw_return : lay.
  Lemma y_parse_twig_sw_silent_feature_call : forall n (outer : nat) (child : pfun), n <= N ->
    sim n (parse_twig_sw_silent_feature_call outer child) (parse_twig_sw_silent_feature_call outer child) eq.
  Proof. intros. unfold parse_twig_sw_silent_feature_call. sgo.
  Qed.
  Hint Resolve y_parse_twig_sw_silent_feature_call : lay.
  Lemma y_parse_twig_sw_extends : forall n (outer : nat), n <= N ->
    sim n (parse_twig_sw_extends outer) (parse_twig_sw_extends outer) eq.
  Proof. intros. unfold parse_twig_sw_extends. sgo.
  Qed.
  Hint Resolve y_parse_twig_sw_extends : lay.
  Lemma y_parse_twig_sw_include : forall n (outer : nat), n <= N ->
    sim n (parse_twig_sw_include outer) (parse_twig_sw_include outer) eq.
  Proof. intros. unfold parse_twig_sw_include. sgo.
  Qed.
  Hint Resolve y_parse_twig_sw_include : lay.
  Lemma y_parse_shopware_twig_block_statement : forall n (outer : nat) (child : pfun), n <= N ->
    sim n (parse_shopware_twig_block_statement outer child) (parse_shopware_twig_block_statement outer child) eq.
  Proof. intros. unfold parse_shopware_twig_block_statement. sgo.
  Qed.
  Hint Resolve y_parse_shopware_twig_block_statement : lay.
  Lemma y_parse_twig_block_statement : forall n (child : pfun), n <= N ->
    sim n (parse_twig_block_statement child) (parse_twig_block_statement child) eq.
  Proof. intros. unfold parse_twig_block_statement. sgo.
  Qed.
  Hint Resolve y_parse_twig_block_statement : lay.
  Lemma y_parse_ludtwig_directive : forall n (outer : nat) (closing_kinds : list kind), n <= N ->
    sim n (parse_ludtwig_directive outer closing_kinds) (parse_ludtwig_directive outer closing_kinds) eq.
  Proof. intros. unfold parse_ludtwig_directive. sgo.
  Qed.
  Hint Resolve y_parse_ludtwig_directive : lay.
  Lemma y_parse_twig_plain_comment : forall n (outer : nat), n <= N ->
    sim n (parse_twig_plain_comment outer) (parse_twig_plain_comment outer) eq.
  Proof. intros. unfold parse_twig_plain_comment. sgo.
  Qed.
  Hint Resolve y_parse_twig_plain_comment : lay.
  Lemma y_parse_twig_comment_statement : forall n, n <= N ->
    sim n (parse_twig_comment_statement) (parse_twig_comment_statement) eq.
  Proof. intros. unfold parse_twig_comment_statement. sgo.
  Qed.
  Hint Resolve y_parse_twig_comment_statement : lay.
  Lemma y_parse_twig_var_statement : forall n, n <= N ->
    sim n (parse_twig_var_statement) (parse_twig_var_statement) eq.
  Proof. intros. unfold parse_twig_var_statement. sgo.
  Qed.
  Hint Resolve y_parse_twig_var_statement : lay.
  Lemma y_parse_any_twig : forall n (child : pfun), n <= N ->
    sim n (parse_any_twig child) (parse_any_twig child) eq.
  Proof. intros. unfold parse_any_twig. sgo.
  Qed.
  Hint Resolve y_parse_any_twig : lay.
  Lemma y_parse_html_doctype : forall n, n <= N ->
    sim n (parse_html_doctype) (parse_html_doctype) eq.
  Proof. intros. unfold parse_html_doctype. sgo.
  Qed.
  Hint Resolve y_parse_html_doctype : lay.
  Lemma y_parse_html_text : forall n, n <= N ->
    sim n (parse_html_text) (parse_html_text) eq.
  Proof. intros. unfold parse_html_text. sgo.
  Qed.
  Hint Resolve y_parse_html_text : lay.
  Lemma y_body_raw_inner : forall n, n <= N ->
    sim n (body_raw_inner) (body_raw_inner) eq.
  Proof. intros. unfold body_raw_inner. sgo.
  Qed.
  Hint Resolve y_body_raw_inner : lay.
  Lemma y_early_end_tag : forall n (tag_kind : kind) (tag_name : text) (met : bool), n <= N ->
    sim n (early_end_tag tag_kind tag_name met) (early_end_tag tag_kind tag_name met) eq.
  Proof. intros. unfold early_end_tag. sgo.
  Qed.
  Hint Resolve y_early_end_tag : lay.
  Lemma y_parse_html_raw_text : forall n (tag_kind : kind) (tag_name : text), n <= N ->
    sim n (parse_html_raw_text tag_kind tag_name) (parse_html_raw_text tag_kind tag_name) eq.
  Proof. intros. unfold parse_html_raw_text. sgo.
  Qed.
  Hint Resolve y_parse_html_raw_text : lay.
  Lemma y_parse_plain_html_comment : forall n (outer : nat), n <= N ->
    sim n (parse_plain_html_comment outer) (parse_plain_html_comment outer) eq.
  Proof. intros. unfold parse_plain_html_comment. sgo.
  Qed.
  Hint Resolve y_parse_plain_html_comment : lay.
  Lemma y_parse_html_comment : forall n, n <= N ->
    sim n (parse_html_comment) (parse_html_comment) eq.
  Proof. intros. unfold parse_html_comment. sgo.
  Qed.
  Hint Resolve y_parse_html_comment : lay.
  Lemma y_html_string_child : forall n (inner : pfun), n <= N ->
    sim n (html_string_child inner) (html_string_child inner) eq.
  Proof. intros. unfold html_string_child. sgo.
  Qed.
  Hint Resolve y_html_string_child : lay.
  Lemma y_inner_double_quote_parser : forall n, n <= N ->
    sim n (inner_double_quote_parser) (inner_double_quote_parser) eq.
  Proof. intros. unfold inner_double_quote_parser. sgo.
  Qed.
  Hint Resolve y_inner_double_quote_parser : lay.
  Lemma y_inner_single_quote_parser : forall n, n <= N ->
    sim n (inner_single_quote_parser) (inner_single_quote_parser) eq.
  Proof. intros. unfold inner_single_quote_parser. sgo.
  Qed.
  Hint Resolve y_inner_single_quote_parser : lay.
  Lemma y_inner_no_quote_parser : forall n, n <= N ->
    sim n (inner_no_quote_parser) (inner_no_quote_parser) eq.
  Proof. intros. unfold inner_no_quote_parser. sgo.
  Qed.
  Hint Resolve y_inner_no_quote_parser : lay.

  Lemma y_quote : forall n (q : option kind), n <= N ->
    sim n (match q with
           | Some TK_DOUBLE_QUOTES => inner_double_quote_parser ;; Ret tt
           | Some TK_SINGLE_QUOTES => inner_single_quote_parser ;; Ret tt
           | None => inner_no_quote_parser
           | Some _ => fail PUnreachable
           end)
          (match q with
           | Some TK_DOUBLE_QUOTES => inner_double_quote_parser ;; Ret tt
           | Some TK_SINGLE_QUOTES => inner_single_quote_parser ;; Ret tt
           | None => inner_no_quote_parser
           | Some _ => fail PUnreachable
           end) eq.
  Proof.
    intros n [q|] Hn; [|auto with lay nocore].
    assert (QF : sim n (fail PUnreachable) (fail PUnreachable) (@eq unit)) by apply sim_fail.
    destruct q; [try exact QF ..].
    - eapply sim_bind; [apply y_inner_double_quote_parser; exact Hn|]. intros. now apply sim_ret.
    - eapply sim_bind; [apply y_inner_single_quote_parser; exact Hn|]. intros. now apply sim_ret.
  Qed.
  Lemma y_parse_html_attribute_value_string : forall n, n <= N ->
    sim n (parse_html_attribute_value_string) (parse_html_attribute_value_string) eq.
  Proof. 
    intros. unfold parse_html_attribute_value_string. sx2. ss. eapply sim_bind with (R1 := eq); [sgo|]. intros q ? <-.
    ss. eapply sim_bind with (R1 := eq); [apply y_quote; assumption|]. intros ? ? <-. sgo.
  Qed.
  Hint Resolve y_parse_html_attribute_value_string : lay.
  Lemma y_parse_html_attribute_rest : forall n (attribute_m : nat), n <= N ->
    sim n (parse_html_attribute_rest attribute_m) (parse_html_attribute_rest attribute_m) eq.
  Proof. intros. unfold parse_html_attribute_rest. sgo.
  Qed.
  Hint Resolve y_parse_html_attribute_rest : lay.

  Definition attr_named : prog (option nat) :=
    attribute_m <- start ;;
    (If at_ TK_COLON Then bump_next_n_as 2 TK_WORD ;; Ret tt Else (bump_as TK_WORD ;; Ret tt)) ;;
    parse_html_attribute_rest attribute_m.
  Definition attr_other : prog (option nat) :=
    If at_twig_var_open Then
      attribute_m <- start ;;
      parse_twig_var_statement ;;
      parse_html_attribute_rest attribute_m
    Else parse_any_twig PFAttr.
  Lemma y_attr_other : forall n, n <= N -> sim n attr_other attr_other eq.
  Proof. intros. unfold attr_other. sgo.
  Qed.

  Lemma rfull_empty : forall s, rfull REmpty s = false.
  Proof. induction s; auto.
  Qed.
  Lemma attr_blank : forall c s, (c = 32 \/ c = 9 \/ c = 10 \/ c = 13)%N ->
    rfull HTML_ATTRIBUTE_NAME_REGEX (txt ":" ++ c :: s) = false.
  Proof.
    intros c s Hc. change (txt ":"%string) with [58%N]. cbn [app rfull].
    destruct Hc as [->|[->|[->| ->]]];
    (match goal with |- rfull ?r s = false => replace r with REmpty by (vm_compute; reflexivity) end; apply rfull_empty).
  Qed.

  (** a name in front of the cursor: [:] and its word are adjacent on both sides *)
  Definition named (r r' : list token) : Prop :=
    (exists t t' q q', r = t :: q /\ r' = t' :: q' /\ is_trivia (tk_kind t) = false /\ same_tok t t' /\
       kind_eqb (tk_kind t) TK_COLON = false) \/
    (exists t t' u u' q q', r = t :: u :: q /\ r' = t' :: u' :: q' /\
       is_trivia (tk_kind t) = false /\ is_trivia (tk_kind u) = false /\ same_tok t t' /\ same_tok u u' /\
       kind_eqb (tk_kind t) TK_COLON = true /\ same_but_blanks q q').

  Lemma y_attr_named : forall n s s', n <= N -> srel T T' s s' -> nf (t_rest s) -> nf (t_rest s') ->
    named (t_rest s) (t_rest s') ->
    both T T' eq (run (tstep false dbg T) n attr_named s) (run (tstep false dbg T') n attr_named s').
  Proof.
    intros n s s' Hn HS F F' HN. unfold attr_named.
    pose proof (y_parse_html_attribute_rest n) as HR.
    rewrite !run_bind. unfold start, prim. rewrite !run_Op. cbn [tstep rbind fst snd]. rewrite !run_Ret. cbn [rbind fst snd].
    rewrite <- (sr_nev _ _ _ _ HS). rewrite !run_bind.
    set (s1 := mkT _ _ _ _ _ _). set (s1' := mkT (t_rest s') _ _ _ _ _).
    assert (HS1 : srel T T' s1 s1').
    { destruct HS. subst s1 s1'. constructor; cbn [t_rest t_snk t_items t_stack t_nev t_errs]; auto.
      constructor; auto. now split. }
    eapply both_bind with (R1 := eq); [|intros a a' z z' <- HZ; cbn [fst snd]; apply HR; auto].
    pose proof (srel_drop _ _ _ _ HS1) as HS2.
    unfold at_, look. rewrite !run_Op. cbn [tstep rbind fst snd]. rewrite !run_Ret. cbn [rbind fst snd].
    assert (SB : sim n (bump_as TK_WORD ;; Ret tt) (bump_as TK_WORD ;; Ret tt) eq) by sgo.
    assert (E1 : drop_trivia (t_rest s1) = t_rest s) by exact F.
    assert (E1' : drop_trivia (t_rest s1') = t_rest s') by exact F'.
    rewrite E1, E1' in *.
    destruct HN as [(t & t' & q & q' & Er & Er' & Ht & St & EC)|(t & t' & u & u' & q & q' & Er & Er' & Ht & Hu & St & Su & EC & Hq)];
      rewrite Er, Er' in *; cbn [l_at]; rewrite <- (proj1 St), EC.
    { apply SB, HS2. }
    rewrite !run_bind. unfold bump_next_n_as, prim. rewrite !run_Op. cbn [tstep t_rest t_snk t_items t_stack t_nev t_errs].
    rewrite (sr_sync _ _ _ _ HS1), (sr_sync' _ _ _ _ HS1), E1, E1'.
    assert (Ht' : is_trivia (tk_kind t') = false) by (rewrite <- (proj1 St); exact Ht).
    assert (Hu' : is_trivia (tk_kind u') = false) by (rewrite <- (proj1 Su); exact Hu).
    rewrite !drop_tok by assumption. cbn [firstn skipn List.length Nat.eqb Nat.leb rbind fst snd]. rewrite !run_Ret. cbn [rbind fst snd].
    rewrite !run_Ret. cbn [both]. split; [reflexivity|].
    destruct (snk_blanks _ _ BT BT' _ _ HS1) as [B B'].
    destruct HS2. constructor; cbn [t_rest t_snk t_items t_stack t_nev t_errs] in *; auto.
    + apply gap_next with (t := u); [|exact Hu]. apply gap_next with (t := t); assumption.
    + apply gap_next with (t := u'); [|exact Hu']. apply gap_next with (t := t'); assumption.
    + destruct (gap_next T t (u :: q) sr_gap Ht) as [(p & Ep) _]. exists (p ++ [u]). rewrite <- app_assoc. exact Ep.
    + destruct (gap_next T' t' (u' :: q') sr_gap' Ht') as [(p & Ep) _]. exists (p ++ [u']). rewrite <- app_assoc. exact Ep.
    + apply Forall2_app; [assumption|]. constructor; [|constructor]. constructor; auto.
      cbn. now rewrite (proj2 St), (proj2 Su).
  Qed.

  Lemma y_body_attr : forall n, n <= N ->
    sim n (body_attr) (body_attr) eq.
  Proof. 
    intros n Hn s s' HS.
    assert (EB : body_attr = (otext <- look l_attr_text ;;
      match otext with
      | None => Ret None
      | Some token_text => if rfull HTML_ATTRIBUTE_NAME_REGEX token_text then attr_named else attr_other
      end)) by reflexivity.
    rewrite EB. clear EB.
    rewrite !run_bind. unfold look. rewrite !run_Op. cbn [tstep rbind fst snd]. rewrite !run_Ret. cbn [rbind fst snd].
    pose proof (srel_drop _ _ _ _ HS) as HD.
    pose proof (y_attr_named n _ _ Hn HD (nf_drop _) (nf_drop _)) as HNm. cbn [t_rest] in HNm.
    pose proof (y_attr_other n Hn _ _ HD) as HO.
    destruct (sb_nf _ _ (sb_drop _ _ (sr_rest _ _ _ _ HS)) (nf_drop _) (nf_drop _))
      as [[E E']|(t & t' & q & q' & E & E' & Ht & St & HR)]; rewrite E, E' in *.
    { replace (l_attr_text []) with (@None text) by reflexivity. rewrite !run_Ret. cbn [both]. auto. }
    unfold l_attr_text at 1 2. cbn [nth_error].
    replace (l_at TK_COLON (t' :: q')) with (l_at TK_COLON (t :: q)) by (cbn; now rewrite (proj1 St)).
    destruct (l_at TK_COLON (t :: q)) eqn:EC.
    - pose proof (sb_head _ _ HR) as Hh. destruct q as [|u q]; destruct q' as [|u' q']; cbn in Hh; try discriminate.
      { cbn [nth_error]. rewrite !run_Ret. cbn [both]. auto. }
      cbn [nth_error]. injection Hh as Hh.
      destruct (is_trivia (tk_kind u)) eqn:Hu.
      + destruct (sb_blank_heads _ _ _ _ HR Hu) as [(_ & c & w & Ew & Hc) (_ & c' & w' & Ew' & Hc')].
        rewrite Ew, Ew', !attr_blank by assumption. exact HO.
      + destruct (sb_nf _ _ HR) as [[? _]|(v & v' & z & z' & Ev & Ev' & Hv & Sv & Hz)]; [apply drop_tok; exact Hu|apply drop_tok; congruence|discriminate|].
        injection Ev as <- <-. injection Ev' as <- <-. rewrite <- (proj2 Sv).
        destruct (rfull _ _); [|exact HO]. apply HNm. right. exists t, t', u, u', q, q'. auto 10.
    - rewrite <- (proj2 St). destruct (rfull _ _); [|exact HO]. apply HNm. left. exists t, t', q, q'. auto.

  Qed.
  Hint Resolve y_body_attr : lay.
  Lemma y_parse_attribute_list : forall n, n <= N ->
    sim n (parse_attribute_list) (parse_attribute_list) eq.
  Proof. intros. unfold parse_attribute_list. sgo.
  Qed.
  Hint Resolve y_parse_attribute_list : lay.
  Lemma y_parse_html_ending_tag : forall n (tag_kind : kind) (tag_name : text) (met : bool), n <= N ->
    sim n (parse_html_ending_tag tag_kind tag_name met) (parse_html_ending_tag tag_kind tag_name met) eq.
  Proof. intros. unfold parse_html_ending_tag. sgo.
  Qed.
  Hint Resolve y_parse_html_ending_tag : lay.
  Lemma y_parse_html_element : forall n, n <= N ->
    sim n (parse_html_element) (parse_html_element) eq.
  Proof. intros. unfold parse_html_element. sgo.
  Qed.
  Hint Resolve y_parse_html_element : lay.
  Lemma y_parse_any_html : forall n, n <= N ->
    sim n (parse_any_html) (parse_any_html) eq.
  Proof. intros. unfold parse_any_html. sgo.
  Qed.
  Hint Resolve y_parse_any_html : lay.
  Lemma y_body_any : forall n, n <= N ->
    sim n (body_any) (body_any) eq.
  Proof. intros. unfold body_any. sgo.
  Qed.
  Hint Resolve y_body_any : lay.

  Theorem y_all : forall c n, n <= N -> sim n (body c) (body c) eq.
  Proof.
    intros [bp|[]] n Hn; cbn [body].
    - now apply y_body_expression.
    - now apply y_body_any.
    - now apply y_body_raw_inner.
    - now apply y_inner_double_quote_parser.
    - now apply y_inner_single_quote_parser.
    - now apply y_body_attr.
  Qed.
End Grammar.

(** Every entry point of the grammar, with any fuel. *)
Theorem lay_call : forall dbg T T', T <> [] -> T' <> [] ->
  (forall t, In t T -> is_trivia (tk_kind t) = true -> blank t) ->
  (forall t, In t T' -> is_trivia (tk_kind t) = true -> blank t) ->
  forall n c, sim dbg T T' n (body c) (body c) eq.
Proof.
  intros dbg T T' HT HT' BT BT' n. induction n as [n IH] using (well_founded_induction Wf_nat.lt_wf).
  intros c. apply (y_all dbg T T' HT HT' BT BT' n); [|lia]. intros m c0 Hm. now apply IH.
Qed.
