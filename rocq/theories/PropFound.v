(** Property theorems: what the rules about names and operators report, C53 - C56. *)
From Coq Require Import NArith String Bool Arith Lia List.
Import ListNotations.
From Verif Require Import Text Kind Lexer LexerProofs ParserApi Machine TreeSpec.
From Verif Require Schema PropShape.
From Verif Require Import Red Typed Rule Rules Check DefaultConfig RedFacts WalkSpec PropRun PropSelect PropOff Found FoundRun FoundShape.
Local Notation length := List.length (only parsing).
Local Open Scope list_scope.

(** * The accessors on error-free templates *)

Section Accessors.
  Context (dbg : bool) (src : text) (t : tree) (HP : parse_src dbg src = OK (t, [])).

  Lemma literal_name_parts n : In n (elements t) -> a_node TWIG_LITERAL_NAME n ->
    exists w, parts n = [w] /\ literal_name n = Some w /\ a_token TK_WORD w.
  Proof.
    intros He Hn. destruct (name_shape dbg src t HP n He Hn) as (w & E & W). exists w. split; [exact E|]. split; [|exact W].
    unfold literal_name. rewrite support_token_parts by reflexivity. rewrite E. cbn [find]. now rewrite (token_of_true _ _ W).
  Qed.

  (** Operands and expressions begin with a node; only a name is followed by something. *)
  Lemma first_part o : In o (elements t) -> a_node TWIG_OPERAND o \/ a_node TWIG_EXPRESSION o ->
    exists n k rest, parts o = n :: rest /\ a_node k n /\
      (rest = [] \/ k = TWIG_LITERAL_NAME /\ exists args, rest = [args] /\ a_node TWIG_ARGUMENTS args).
  Proof.
    intros He [H|H].
    - destruct (operand_shape dbg src t HP o He H) as [(n & k & E & Hk & _)|(n & args & E & Hk & Ha)].
      + exists n, k, []. auto.
      + exists n, TWIG_LITERAL_NAME, [args]. split; [exact E|]. split; [exact Hk|]. right. eauto.
    - destruct (expression_shape dbg src t HP o He H) as (n & k & E & Hk & _). exists n, k, []. auto.
  Qed.

  Lemma operand_name_spec o : In o (elements t) -> a_node TWIG_OPERAND o \/ a_node TWIG_EXPRESSION o ->
    match operand_name o with Some w => name_word o w | None => forall w, ~ name_word o w end.
  Proof.
    intros He Ho. destruct (first_part o He Ho) as (n & k & rest & E & Hn & R). unfold operand_name. rewrite support_child_parts, E. cbn [find].
    destruct (kind_eqb k TWIG_LITERAL_NAME) eqn:K.
    - apply kind_eqb_eq in K. subst k. rewrite (node_of_true _ _ Hn). cbn [obind].
      destruct (literal_name_parts n) as (w & Ew & -> & _); [eapply part_element; [exact He|rewrite E; now left]|exact Hn|].
      exists n, rest. auto.
    - assert (NK : k <> TWIG_LITERAL_NAME) by (intros ->; rewrite (proj2 (kind_eqb_eq _ _) eq_refl) in K; discriminate K).
      rewrite (node_of_false _ _ _ Hn NK). destruct R as [->|[X _]]; [|contradiction]. cbn [find obind].
      intros w (n' & r' & E' & Hn' & _). rewrite E in E'. injection E' as -> _. apply NK. eapply a_node_inj; eauto.
  Qed.

  Lemma name_operand_call c : In c (elements t) -> a_node TWIG_FUNCTION_CALL c ->
    exists f args, parts c = [f; args] /\ a_node TWIG_OPERAND f /\ name_operand c = Some f.
  Proof.
    intros He Hc. destruct (call_shape dbg src t HP c He Hc) as (f & args & E & Hf & _). exists f, args. split; [exact E|]. split; [exact Hf|].
    unfold name_operand. rewrite support_child_parts, E. cbn [find]. now rewrite (node_of_true _ _ Hf).
  Qed.

  Lemma name_or_call_spec o : In o (elements t) -> a_node TWIG_OPERAND o \/ a_node TWIG_EXPRESSION o ->
    match name_or_call o with Some w => used_name o w | None => forall w, ~ used_name o w end.
  Proof.
    intros He Ho. destruct (first_part o He Ho) as (n & k & rest & E & Hn & R).
    assert (Hin : In n (elements t)) by (eapply part_element; [exact He|rewrite E; now left]).
    unfold name_or_call. rewrite support_child_parts, E. cbn [find]. destruct (kind_eqb k TWIG_LITERAL_NAME) eqn:K.
    - apply kind_eqb_eq in K. subst k. rewrite (node_of_true _ _ Hn).
      destruct (literal_name_parts n Hin Hn) as (w & Ew & -> & _). left. exists n, rest. auto.
    - assert (NK : k <> TWIG_LITERAL_NAME) by (intros ->; rewrite (proj2 (kind_eqb_eq _ _) eq_refl) in K; discriminate K).
      rewrite (node_of_false _ _ _ Hn NK). destruct R as [->|[X _]]; [|contradiction]. cbn [find].
      assert (NW : forall w, ~ name_word o w).
      { intros w (n' & r' & E' & Hn' & _). rewrite E in E'. injection E' as -> _. apply NK. eapply a_node_inj; eauto. }
      rewrite support_child_parts, E. cbn [find]. destruct (kind_eqb k TWIG_FUNCTION_CALL) eqn:K2.
      + apply kind_eqb_eq in K2. subst k. rewrite (node_of_true _ _ Hn). cbn [obind].
        destruct (name_operand_call n Hin Hn) as (f & args & Ef & Hf & ->). cbn [obind].
        assert (Hinf : In f (elements t)) by (eapply part_element; [exact Hin|rewrite Ef; now left]).
        pose proof (operand_name_spec f Hinf (or_introl Hf)) as S. destruct (operand_name f) as [w|].
        * right. exists n, f, args. auto.
        * intros w [H|(c & f' & a' & E' & _ & Ef' & H)]; [exact (NW w H)|]. rewrite E in E'. injection E' as <-. rewrite Ef in Ef'.
          injection Ef' as <- _. exact (S w H).
      + assert (NK2 : k <> TWIG_FUNCTION_CALL) by (intros ->; rewrite (proj2 (kind_eqb_eq _ _) eq_refl) in K2; discriminate K2).
        rewrite (node_of_false _ _ _ Hn NK2). cbn [find obind].
        intros w [H|(c & f' & a' & E' & Hc & _)]; [exact (NW w H)|]. rewrite E in E'. injection E' as <-. apply NK2. eapply a_node_inj; eauto.
  Qed.

  Lemma filter_filter_parts f : In f (elements t) -> a_node TWIG_FILTER f ->
    exists l b r, parts f = [l; b; r] /\ a_node TWIG_OPERAND l /\ a_token TK_SINGLE_PIPE b /\ a_node TWIG_OPERAND r /\
      filter_operand f = Some l /\ filter_filter f = Some r.
  Proof.
    intros He Hf. destruct (filter_shape dbg src t HP f He Hf) as (l & b & r & E & Hl & Hb & Hr). exists l, b, r.
    split; [exact E|]. do 3 (split; [assumption|]). unfold filter_operand, filter_filter. rewrite support_child_parts, support_children_parts, E.
    cbn [find filter]. rewrite (node_of_true _ _ Hl), (node_of_true _ _ Hr), (node_of_token _ _ _ Hb). auto.
  Qed.

  Lemma rhs_parts b : In b (elements t) -> a_node TWIG_BINARY_EXPRESSION b ->
    exists l op rest, parts b = l :: op :: rest /\ binary_operator b = Some op /\ (exists k, a_token k op) /\
      (a_node TWIG_EXPRESSION l \/ a_node TWIG_BINARY_EXPRESSION l) /\
      (rest = [] /\ rhs_expression b = None \/
       exists r, rest = [r] /\ a_node TWIG_EXPRESSION r /\
         (a_node TWIG_EXPRESSION l -> rhs_expression b = Some r) /\ (a_node TWIG_BINARY_EXPRESSION l -> rhs_expression b = None)).
  Proof.
    intros He Hb. destruct (binary_shape dbg src t HP b He Hb) as (l & op & rest & E & Hl & (k & Hop & _) & R & B). exists l, op, rest.
    split; [exact E|]. split; [exact B|]. split; [eauto|]. split; [exact Hl|]. unfold rhs_expression. rewrite support_children_parts, E. cbn [filter].
    rewrite (node_of_token _ _ _ Hop). destruct R as [->|(r & -> & Hr)].
    - left. split; [reflexivity|]. cbn [filter]. destruct (node_of TWIG_EXPRESSION l); reflexivity.
    - right. exists r. split; [reflexivity|]. split; [exact Hr|]. cbn [filter]. rewrite (node_of_true _ _ Hr). split; intros X.
      + now rewrite (node_of_true _ _ X).
      + rewrite (node_of_false TWIG_EXPRESSION _ _ X) by discriminate. reflexivity.
  Qed.
End Accessors.

(** * C53: filters *)

(** The name [w] is used as a filter by [f]: [... | w] or [... | w(...)]. *)
Definition filter_use (f w : elem) : Prop :=
  a_node TWIG_FILTER f /\ exists l b o, parts f = [l; b; o] /\ used_name o w.

Theorem C53_unknown_filters_are_reported_exactly : forall dbg src t cf rules results,
  parse_src dbg src = OK (t, []) -> incl rules RULE_DEFINITIONS -> NoDup (map rl_name rules) -> In rule_valid_filter rules ->
  run_rules cf rules t = Done results ->
  exactly results (txt "twig-valid-filter"%string)
    (fun w => exists f, In f (elements t) /\ visible (txt "twig-valid-filter"%string) f /\
                filter_use f w /\ ~ In (el_text w) (valid_filters cf))
    (at_element SWarning).
Proof.
  intros dbg src t cf rules results HP HI HN Hin HR.
  apply (exact_node_rule cf rules t results _ _ (fun f w => filter_use f w /\ ~ In (el_text w) (valid_filters cf)) _ HI HN HR Hin).
  - intros ctx e Hc He. cbn beta. destruct (cast TWIG_FILTER e) as [f|] eqn:C; cbn [obind].
    + apply cast_iff in C as [-> C]. destruct (filter_filter_parts dbg src t HP e He C) as (l & b & r & E & Hl & Hb & Hr & _ & ->). cbn [obind].
      assert (Hinr : In r (elements t)) by (eapply part_element; [exact He|rewrite E; cbn [In]; auto]).
      pose proof (name_or_call_spec dbg src t HP r Hinr (or_introl Hr)) as S.
      assert (U : forall w, filter_use e w <-> used_name r w).
      { intros w. split; [intros (_ & l' & b' & o' & E' & U)|intros U; split; [exact C|exists l, b, r; auto]]. rewrite E in E'. now injection E' as _ _ <-. }
      destruct (name_or_call r) as [w|]; cbn [obind].
      * rewrite Hc. destruct (mem_text (el_text w) (valid_filters cf)) eqn:M; cbn [negb].
        -- apply mem_text_In in M. intros x [X N]. apply U in X. now rewrite (used_name_fun _ _ _ X S) in N.
        -- apply mem_text_false in M. exists w. split; [split; [now apply U|exact M]|]. split; [|reflexivity].
           intros y [Y _]. apply U in Y. eapply used_name_fun; eauto.
      * intros x [X _]. apply U in X. exact (S x X).
    + intros x [[X _] _]. rewrite (cast_node _ _ X) in C. discriminate C.
  - intros e x [[[cs ->] _] _]. reflexivity.
  - intros e e' x [(H & l & b & o & E & U) _] [(H' & l' & b' & o' & E' & U') _].
    assert (P : parent o = Some e) by (apply part_parent; rewrite E; cbn [In]; auto).
    assert (P' : parent o' = Some e') by (apply part_parent; rewrite E'; cbn [In]; auto).
    refine (proj1 (used_name_owner o o' e e' x U U' P P' _ _)); intros X.
    + discriminate (a_node_inj _ _ _ H X).
    + discriminate (a_node_inj _ _ _ H' X).
Qed.

(** ** Concrete templates *)
Lemma forall2_length {A B} (R : A -> B -> Prop) l l' : Forall2 R l l' -> length l = length l'.
Proof. induction 1; cbn [List.length]; auto. Qed.
Definition parsed (src : text) : tree := match parse_src true src with OK (t, _) => t | _ => Node ROOT [] end.
Definition the (src : text) (i : nat) : elem := nth i (elements (parsed src)) (root_elem (parsed src)).
(** What the rule [n] says about the template [src]; nothing unless it parses without errors. *)
Definition says (n : text) (src : text) : list shown :=
  match parse_src true src with
  | OK (t, []) => match run_rules default_config RULE_DEFINITIONS t with
                  | Done l => map show (filter (fun r => text_eqb (rs_rule r) n) l)
                  | Crashed => [] end
  | _ => []
  end.
Lemma node_listed k t c : In c (elements t) -> a_node k c -> In c (filter (node_of k) (elements t)).
Proof. intros H K. apply filter_In. split; [exact H|now apply node_of_true]. Qed.
Ltac template := vm_compute; reflexivity.
Ltac in_template := apply nth_In; vm_compute; lia.

(** Two uses of unknown filters, one of a known one and one that is switched off. *)
Example C53_case :
  says (txt "twig-valid-filter"%string)
    (txt "{{ a|foo|upper|bar(1) }}{# ludtwig-ignore twig-valid-filter #}{{ a|baz }}"%string)
  = [mkShown SWarning (Some (15, 18)) []; mkShown SWarning (Some (5, 8)) []] .
Proof. vm_compute. reflexivity. Qed.

(** The full claim - every use of a filter - is false: the filter of an apply tag is not looked at. *)
Definition apply_filter : text := txt "{% apply nosuch %}a{% endapply %}"%string.
Theorem C53_filters_of_apply_tags_are_checked_refuted :
  ~ (forall dbg src t cf results, parse_src dbg src = OK (t, []) -> run_rules cf RULE_DEFINITIONS t = Done results ->
     forall s n w, In s (elements t) -> visible (txt "twig-valid-filter"%string) s ->
       a_node TWIG_APPLY_STARTING_BLOCK s -> In n (parts s) -> a_node TWIG_LITERAL_NAME n -> parts n = [w] ->
       ~ In (el_text w) (valid_filters cf) ->
       exists r, In r results /\ rs_rule r = txt "twig-valid-filter"%string).
Proof.
  intros H.
  destruct (H true apply_filter (parsed apply_filter) default_config [] ltac:(template) ltac:(template)
              (the apply_filter 2) (the apply_filter 6) (the apply_filter 8)) as (r & [] & _).
  - in_template.
  - split; template.
  - eexists; template.
  - vm_compute. auto.
  - eexists; template.
  - template.
  - apply mem_text_false. template.
Qed.

(** * C54: tests *)

Definition test_operator (op : elem) : Prop := a_token TK_IS op \/ a_token TK_IS_NOT op.
(** The name [w] is used as a test by [b]: [l is w], [l is not w] or one of these with arguments. *)
Definition test_of (b l w : elem) : Prop :=
  a_node TWIG_BINARY_EXPRESSION b /\ exists op r, parts b = [l; op; r] /\ test_operator op /\ used_name r w.
Definition test_use (b w : elem) : Prop := exists l, test_of b l w.

Lemma is_test_operator_spec op : (exists k, a_token k op) -> is_test_operator op = true <-> test_operator op.
Proof.
  intros (k & s & E). unfold is_test_operator, test_operator, a_token, el_kind. rewrite E. cbn [tree_kind].
  rewrite orb_true_iff, !kind_eqb_eq. split.
  - intros [-> | ->]; eauto.
  - intros [(s' & H)|(s' & H)]; injection H as -> _; auto.
Qed.

(** Full statement: the same without the condition on the left operand; see below. *)
Theorem C54_unknown_tests_are_reported_exactly_partial : forall dbg src t cf rules results,
  parse_src dbg src = OK (t, []) -> incl rules RULE_DEFINITIONS -> NoDup (map rl_name rules) -> In rule_valid_test rules ->
  run_rules cf rules t = Done results ->
  exactly results (txt "twig-valid-test"%string)
    (fun w => exists b, In b (elements t) /\ visible (txt "twig-valid-test"%string) b /\
                (exists l, test_of b l w /\ a_node TWIG_EXPRESSION l) /\ ~ In (el_text w) (valid_tests cf))
    (at_element SWarning).
Proof.
  intros dbg src t cf rules results HP HI HN Hin HR.
  apply (exact_node_rule cf rules t results _ _ (fun b w => (exists l, test_of b l w /\ a_node TWIG_EXPRESSION l) /\ ~ In (el_text w) (valid_tests cf)) _ HI HN HR Hin).
  - intros ctx e Hc He. cbn beta. destruct (cast TWIG_BINARY_EXPRESSION e) as [b|] eqn:C; cbn [obind].
    + apply cast_iff in C as [-> C]. destruct (rhs_parts dbg src t HP e He C) as (l & op & rest & E & -> & Kop & Kl & R). cbn [obind].
      destruct (is_test_operator op) eqn:T; cbn [negb].
      2: { intros x [(l' & (_ & op' & r' & E' & T' & _) & _) _]. rewrite E in E'. injection E' as <- <- _.
           apply (is_test_operator_spec op Kop) in T'. rewrite T' in T. discriminate T. }
      apply (is_test_operator_spec op Kop) in T.
      destruct R as [[-> ->]|(r & -> & Hr & R1 & R2)]; cbn [obind].
      { intros x [(l' & (_ & op' & r' & E' & _) & _) _]. rewrite E in E'. discriminate E'. }
      assert (U : forall w, (exists l, test_of e l w /\ a_node TWIG_EXPRESSION l) <-> a_node TWIG_EXPRESSION l /\ used_name r w).
      { intros w. split.
        - intros (l' & (_ & op' & r' & E' & _ & U) & Kl'). rewrite E in E'. injection E' as <- _ <-. auto.
        - intros [Kl' U]. exists l. split; [|exact Kl']. split; [exact C|]. exists op, r. auto. }
      destruct Kl as [Kl|Kl].
      2: { rewrite (R2 Kl). cbn [obind]. intros x [X _]. apply U in X as [X _]. discriminate (a_node_inj _ _ _ Kl X). }
      rewrite (R1 Kl). cbn [obind].
      assert (Hinr : In r (elements t)) by (eapply part_element; [exact He|rewrite E; cbn [In]; auto]).
      pose proof (name_or_call_spec dbg src t HP r Hinr (or_intror Hr)) as S.
      destruct (name_or_call r) as [w|]; cbn [obind].
      * rewrite Hc. destruct (mem_text (el_text w) (valid_tests cf)) eqn:M; cbn [negb].
        -- apply mem_text_In in M. intros x [X N]. apply U in X as [_ X]. now rewrite (used_name_fun _ _ _ X S) in N.
        -- apply mem_text_false in M. exists w. split; [split; [now apply U|exact M]|]. split; [|reflexivity].
           intros y [Y _]. apply U in Y as [_ Y]. eapply used_name_fun; eauto.
      * intros x [X _]. apply U in X as [_ X]. exact (S x X).
    + intros x [(l & (X & _) & _) _]. rewrite (cast_node _ _ X) in C. discriminate C.
  - intros e x [(l & ([cs ->] & _) & _) _]. reflexivity.
  - intros e e' x [(l & (H & op & o & E & _ & U) & _) _] [(l' & (H' & op' & o' & E' & _ & U') & _) _].
    assert (P : parent o = Some e) by (apply part_parent; rewrite E; cbn [In]; auto).
    assert (P' : parent o' = Some e') by (apply part_parent; rewrite E'; cbn [In]; auto).
    refine (proj1 (used_name_owner o o' e e' x U U' P P' _ _)); intros X.
    + discriminate (a_node_inj _ _ _ H X).
    + discriminate (a_node_inj _ _ _ H' X).
Qed.

Example C54_case :
  says (txt "twig-valid-test"%string) (txt "{{ a is foo and b is not bar(1) or c is defined or c is same as(d) }}"%string)
  = [mkShown SWarning (Some (8, 11)) []; mkShown SWarning (Some (25, 28)) []].
Proof. vm_compute. reflexivity. Qed.

(** The full statement is false: nothing is said about the test in this template. *)
Definition late_test : text := txt "{{ a ?? b is foo }}"%string.
Theorem C54_unknown_tests_are_reported_exactly_refuted :
  ~ (forall dbg src t cf rules results,
     parse_src dbg src = OK (t, []) -> incl rules RULE_DEFINITIONS -> NoDup (map rl_name rules) -> In rule_valid_test rules ->
     run_rules cf rules t = Done results ->
     exactly results (txt "twig-valid-test"%string)
       (fun w => exists b, In b (elements t) /\ visible (txt "twig-valid-test"%string) b /\ test_use b w /\ ~ In (el_text w) (valid_tests cf))
       (at_element SWarning)).
Proof.
  intros H. specialize (H true late_test (parsed late_test) default_config RULE_DEFINITIONS [] ltac:(template) (incl_refl _) names_distinct).
  destruct H as (xs & _ & X & F); [unfold RULE_DEFINITIONS; cbn [In]; tauto|template|].
  inversion F; subst. apply (proj2 (X (the late_test 21))). exists (the late_test 4).
  split; [in_template|]. split; [split; template|]. split; [|apply mem_text_false; template].
  exists (the late_test 5). split; [eexists; template|]. exists (the late_test 17), (the late_test 18). split; [template|].
  split; [left; eexists; template|]. left. exists (the late_test 19), []. split; [template|]. split; [eexists; template|template].
Qed.

(** * C55: functions *)

(** [c] is a call of the function with the name [w]. *)
Definition calls (c w : elem) : Prop :=
  a_node TWIG_FUNCTION_CALL c /\ exists f args, parts c = [f; args] /\ name_word f w.
(** What looks like a call is a filter or a test with arguments. *)
Definition is_filter_call (c : elem) : Prop :=
  exists f l b o, a_node TWIG_FILTER f /\ parts f = [l; b; o] /\ parts o = [c].
Definition is_test_call_of (l c : elem) : Prop :=
  exists b op r, a_node TWIG_BINARY_EXPRESSION b /\ parts b = [l; op; r] /\ test_operator op /\ parts r = [c].
Definition is_test_call (c : elem) : Prop := exists l, is_test_call_of l c.

Section Calls.
  Context (dbg : bool) (src : text) (t : tree) (HP : parse_src dbg src = OK (t, [])).

  Lemma filter_or_test_call c : In c (elements t) -> a_node TWIG_FUNCTION_CALL c ->
    is_filter_or_test_call c = true <-> is_filter_call c \/ exists l, is_test_call_of l c /\ a_node TWIG_EXPRESSION l.
  Proof.
    intros He Hc. unfold is_filter_or_test_call. destruct (parent c) as [p|] eqn:Ep.
    2: { split; [discriminate|]. intros [(f & l & b & o & _ & _ & E)|(l & (b & op & r & _ & _ & _ & E) & _)];
           rewrite (part_parent _ c) in Ep by (rewrite E; now left); discriminate Ep. }
    assert (Wc := elements_within _ _ He). assert (Wp := within_parent _ _ _ Wc Ep).
    assert (PC : forall o, parts o = [c] -> o = p).
    { intros o E. rewrite (part_parent o c) in Ep by (rewrite E; now left). now injection Ep. }
    destruct (parent p) as [g|] eqn:Eg.
    2: { split; [discriminate|]. intros [(f & l & b & o & _ & E' & E)|(l & (b & op & r & _ & E' & _ & E) & _)]; apply PC in E; subst;
           rewrite (part_parent _ p) in Eg by (rewrite E'; cbn [In]; auto); discriminate Eg. }
    assert (Wg := within_parent _ _ _ Wp Eg). assert (Hg : In g (elements t)) by now apply within_elements.
    assert (PP : forall o x, In o (parts x) -> parts o = [c] -> x = g).
    { intros o x Hin E. apply PC in E. subst o. rewrite (part_parent x p Hin) in Eg. now injection Eg. }
    (* the children of a node that have the only child c *)
    assert (OC : forall o, In o (parts g) -> (exists k, a_node k o /\ (k = TWIG_OPERAND \/ k = TWIG_EXPRESSION)) -> same_child o p = true <-> parts o = [c]).
    { intros o Ho (k & Ko & Kk). assert (Hp : In p (children_with_tokens g)) by (apply (parent_children t); [now apply within_elements|exact Eg]).
      unfold same_child. rewrite Nat.eqb_eq. split.
      - intros E. apply (sorted_inj g) in E; [|now apply parts_children|exact Hp]. subst o.
        assert (Hin : In p (elements t)) by now apply within_elements.
        assert (Cp : In c (parts p)) by (apply filter_In; split; [now apply (parent_children t)|]; destruct Hc as (cs & ->); reflexivity).
        destruct (first_part dbg src t HP p Hin) as (n & kn & rest & E & Hn & R); [destruct Kk as [->| ->]; auto|].
        rewrite E in Cp |- *. destruct R as [->|[-> (args & -> & Ha)]].
        + destruct Cp as [->|[]]. reflexivity.
        + exfalso. destruct Cp as [->|[->|[]]]; [discriminate (a_node_inj _ _ _ Hc Hn)|discriminate (a_node_inj _ _ _ Hc Ha)].
      - intros E. now rewrite (PC o E). }
    rewrite orb_true_iff. apply Morphisms_Prop.or_iff_morphism.
    - split.
      + destruct (cast TWIG_FILTER g) as [f|] eqn:C; [|discriminate]. apply cast_iff in C as [-> C].
        destruct (filter_filter_parts dbg src t HP g Hg C) as (l & b & r & E & Hl & Hb & Hr & _ & ->). intros S.
        exists g, l, b, r. split; [exact C|]. split; [exact E|]. apply OC; [rewrite E; cbn [In]; auto|eauto|exact S].
      + intros (f & l & b & o & Hf & E & Eo). assert (f = g) as -> by (apply (PP o f); [rewrite E; cbn [In]; auto|exact Eo]).
        rewrite (cast_node _ _ Hf). destruct (filter_filter_parts dbg src t HP g Hg Hf) as (l' & b' & r' & E' & _ & _ & Hr & _ & ->).
        rewrite E in E'. injection E' as <- <- <-. apply OC; [rewrite E; cbn [In]; auto|eauto|exact Eo].
    - split.
      + destruct (cast TWIG_BINARY_EXPRESSION g) as [b|] eqn:C; [|discriminate]. apply cast_iff in C as [-> C].
        destruct (rhs_parts dbg src t HP g Hg C) as (l & op & rest & E & -> & Kop & Kl & R). intros S. apply andb_true_iff in S as [T S].
        apply (is_test_operator_spec op Kop) in T. destruct R as [[_ R]|(r & -> & Hr & R1 & R2)]; [rewrite R in S; discriminate S|].
        destruct Kl as [Kl|Kl]; [|rewrite (R2 Kl) in S; discriminate S]. rewrite (R1 Kl) in S. exists l. split; [|exact Kl].
        exists g, op, r. split; [exact C|]. split; [exact E|]. split; [exact T|]. apply OC; [rewrite E; cbn [In]; auto|eauto|exact S].
      + intros (l & (b & op & r & Hb & E & T & Eo) & Kl). assert (b = g) as -> by (apply (PP r b); [rewrite E; cbn [In]; auto|exact Eo]).
        rewrite (cast_node _ _ Hb). destruct (rhs_parts dbg src t HP g Hg Hb) as (l' & op' & rest & E' & -> & Kop & _ & R).
        rewrite E in E'. injection E' as <- <- <-. apply (is_test_operator_spec op Kop) in T. rewrite T. cbn [andb].
        destruct R as [[R _]|(r' & R & Hr & R1 & _)]; [discriminate R|]. injection R as <-. rewrite (R1 Kl).
        apply OC; [rewrite E; cbn [In]; auto|eauto|exact Eo].
  Qed.
End Calls.

(** Full statement: [~ is_test_call c] for the condition on the left operand; see below. *)
Theorem C55_unknown_functions_are_reported_exactly_partial : forall dbg src t cf rules results,
  parse_src dbg src = OK (t, []) -> incl rules RULE_DEFINITIONS -> NoDup (map rl_name rules) -> In rule_valid_function rules ->
  run_rules cf rules t = Done results ->
  exactly results (txt "twig-valid-function"%string)
    (fun w => exists c, In c (elements t) /\ visible (txt "twig-valid-function"%string) c /\
                calls c w /\ ~ is_filter_call c /\ ~ (exists l, is_test_call_of l c /\ a_node TWIG_EXPRESSION l) /\
                ~ In (el_text w) (valid_functions cf))
    (at_element SWarning).
Proof.
  intros dbg src t cf rules results HP HI HN Hin HR.
  apply (exact_node_rule cf rules t results _ _ (fun c w => calls c w /\ ~ is_filter_call c /\ ~ (exists l, is_test_call_of l c /\ a_node TWIG_EXPRESSION l) /\
           ~ In (el_text w) (valid_functions cf)) _ HI HN HR Hin).
  - intros ctx e Hc He. cbn beta. destruct (cast TWIG_FUNCTION_CALL e) as [c|] eqn:C; cbn [obind].
    + apply cast_iff in C as [-> C]. pose proof (filter_or_test_call dbg src t HP e He C) as FT.
      destruct (is_filter_or_test_call e).
      { intros x (_ & N1 & N2 & _). destruct (proj1 FT eq_refl); contradiction. }
      assert (N1 : ~ is_filter_call e) by (intros X; discriminate (proj2 FT (or_introl X))).
      assert (N2 : ~ (exists l, is_test_call_of l e /\ a_node TWIG_EXPRESSION l)) by (intros X; discriminate (proj2 FT (or_intror X))).
      destruct (name_operand_call dbg src t HP e He C) as (f & args & E & Hf & ->). cbn [obind].
      assert (Hinf : In f (elements t)) by (eapply part_element; [exact He|rewrite E; now left]).
      pose proof (operand_name_spec dbg src t HP f Hinf (or_introl Hf)) as S.
      assert (U : forall w, calls e w <-> name_word f w).
      { intros w. split; [intros (_ & f' & a' & E' & U)|intros U; split; [exact C|exists f, args; auto]]. rewrite E in E'. now injection E' as <- _. }
      destruct (operand_name f) as [w|]; cbn [obind].
      * rewrite Hc. destruct (mem_text (el_text w) (valid_functions cf)) eqn:M; cbn [negb].
        -- apply mem_text_In in M. intros x (X & _ & _ & N). apply U in X. now rewrite (name_word_fun _ _ _ X S) in N.
        -- apply mem_text_false in M. exists w. split; [split; [now apply U|auto]|]. split; [|reflexivity].
           intros y [Y _]. apply U in Y. eapply name_word_fun; eauto.
      * intros x [X _]. apply U in X. exact (S x X).
    + intros x [[X _] _]. rewrite (cast_node _ _ X) in C. discriminate C.
  - intros e x [[[cs ->] _] _]. reflexivity.
  - intros e e' x [(_ & f & a & E & U) _] [(_ & f' & a' & E' & U') _]. assert (f = f') as <- by (eapply name_word_inj; eauto).
    assert (P : parent f = Some e) by (apply part_parent; rewrite E; now left).
    assert (P' : parent f = Some e') by (apply part_parent; rewrite E'; now left). congruence.
Qed.

Example C55_case :
  says (txt "twig-valid-function"%string) (txt "{{ foo(1) + a|bar(1) }}{{ a is baz(range(nosuch(1))) }}"%string)
  = [mkShown SWarning (Some (3, 6)) []; mkShown SWarning (Some (41, 47)) []].
Proof. vm_compute. reflexivity. Qed.

(** The full statement is false: the test is taken for a function. *)
Definition late_test_call : text := txt "{{ a ?? b is foo(1) }}"%string.
Theorem C55_unknown_functions_are_reported_exactly_refuted :
  ~ (forall dbg src t cf rules results,
     parse_src dbg src = OK (t, []) -> incl rules RULE_DEFINITIONS -> NoDup (map rl_name rules) -> In rule_valid_function rules ->
     run_rules cf rules t = Done results ->
     exactly results (txt "twig-valid-function"%string)
       (fun w => exists c, In c (elements t) /\ visible (txt "twig-valid-function"%string) c /\
                   calls c w /\ ~ is_filter_call c /\ ~ is_test_call c /\ ~ In (el_text w) (valid_functions cf))
       (at_element SWarning)).
Proof.
  intros H. specialize (H true late_test_call (parsed late_test_call) default_config RULE_DEFINITIONS).
  destruct (run_rules default_config RULE_DEFINITIONS (parsed late_test_call)) as [res|] eqn:R;
    [|apply (f_equal (fun o => match o with Done _ => true | Crashed => false end)) in R; vm_compute in R; discriminate R].
  specialize (H res ltac:(template) (incl_refl _) names_distinct).
  destruct H as (xs & _ & X & F); [unfold RULE_DEFINITIONS; cbn [In]; tauto|reflexivity|].
  assert (L : length xs = 1).
  { rewrite <- (forall2_length _ _ _ F).
    transitivity (match run_rules default_config RULE_DEFINITIONS (parsed late_test_call) with
                  | Done l => length (filter (fun r => text_eqb (rs_rule r) (txt "twig-valid-function"%string)) l) | Crashed => 0 end);
      [now rewrite R|template]. }
  destruct xs as [|x xs]; [discriminate L|]. destruct (proj1 (X x) (or_introl eq_refl)) as (c & Hc & _ & (Kc & _) & _ & NT & _). apply NT.
  pose proof (node_listed _ _ _ Hc Kc) as C.
  assert (E : filter (node_of TWIG_FUNCTION_CALL) (elements (parsed late_test_call)) = [the late_test_call 19]) by template.
  rewrite E in C. destruct C as [<-|[]]. exists (the late_test_call 5), (the late_test_call 4), (the late_test_call 17), (the late_test_call 18).
  split; [eexists; template|]. split; [template|]. split; [left; eexists; template|template].
Qed.

(** * C56: operators that are not Twig *)

(** [op] is the operator of [b]. *)
Definition operator_use (k : kind) (b op : elem) : Prop :=
  a_node TWIG_BINARY_EXPRESSION b /\ a_token k op /\ In op (parts b).

Lemma operator_unique dbg src t : parse_src dbg src = OK (t, []) -> forall k b op, In b (elements t) -> operator_use k b op ->
  exists l rest, parts b = l :: op :: rest.
Proof.
  intros HP k b op Hb (Kb & Ko & Ho). destruct (rhs_parts dbg src t HP b Hb Kb) as (l & op' & rest & E & _ & (k' & Ko') & Kl & R).
  rewrite E in Ho. destruct Ho as [<-|[<-|Ho]].
  - exfalso. destruct Kl as [X|X]; exact (node_not_token _ _ _ X Ko).
  - eauto.
  - exfalso. destruct R as [[-> _]|(r & -> & Kr & _)]; [destruct Ho|]. destruct Ho as [<-|[]]. exact (node_not_token _ _ _ Kr Ko).
Qed.

Lemma logic_exact name k sh new : forall dbg src t cf rules results,
  parse_src dbg src = OK (t, []) -> incl rules RULE_DEFINITIONS -> NoDup (map rl_name rules) -> In (rule_logic name k sh new) rules ->
  run_rules cf rules t = Done results ->
  exactly results name (fun op => exists b, In b (elements t) /\ visible name b /\ operator_use k b op) (replaced_by SError new).
Proof.
  intros dbg src t cf rules results HP HI HN Hin HR.
  assert (G : exactly results name (fun op => exists b, In b (elements t) /\ visible name b /\ (In b (elements t) /\ operator_use k b op)) (replaced_by SError new)).
  { apply (exact_node_rule cf rules t results _ _ (fun b op => In b (elements t) /\ operator_use k b op) _ HI HN HR Hin).
    - intros ctx e Hc He. cbn beta. destruct (cast TWIG_BINARY_EXPRESSION e) as [b|] eqn:C; cbn [obind].
      + apply cast_iff in C as [-> C]. destruct (rhs_parts dbg src t HP e He C) as (l & op & rest & E & -> & (k' & Ko) & _ & _). cbn [obind].
        assert (U : forall x, operator_use k e x -> x = op).
        { intros x X. destruct (operator_unique _ _ _ HP k e x He X) as (l' & rest' & E'). rewrite E in E'. now injection E' as _ <- _. }
        destruct (kind_eqb (el_kind op) k) eqn:K.
        * exists op. split; [split; [exact He|]; split; [exact C|]; split; [|rewrite E; cbn [In]; auto]|].
          -- destruct Ko as (s & Eo). exists s. apply kind_eqb_eq in K. unfold el_kind in K. rewrite Eo in *. cbn [tree_kind] in K. now subst.
          -- split; [|reflexivity]. intros y [_ Y]. auto.
        * intros x [_ X]. pose proof (U x X) as ->. destruct X as (_ & (s & X) & _). unfold el_kind in K. rewrite X in K. cbn [tree_kind] in K.
          rewrite (proj2 (kind_eqb_eq k k) eq_refl) in K. discriminate K.
      + intros x [_ [X _]]. rewrite (cast_node _ _ X) in C. discriminate C.
    - intros e x [_ [[cs ->] _]]. reflexivity.
    - intros e e' x [_ (_ & _ & H)] [_ (_ & _ & H')]. apply part_parent in H, H'. congruence. }
  destruct G as (xs & X1 & X2 & X3). exists xs. split; [exact X1|]. split; [|exact X3]. intros x. rewrite X2. split; intros (b & B); exists b; tauto.
Qed.

Theorem C56_logic_operators_are_replaced_exactly : forall dbg src t cf rules results,
  parse_src dbg src = OK (t, []) -> incl rules RULE_DEFINITIONS -> NoDup (map rl_name rules) ->
  run_rules cf rules t = Done results ->
  (In rule_logic_and rules ->
   exactly results (txt "twig-logic-and"%string)
     (fun op => exists b, In b (elements t) /\ visible (txt "twig-logic-and"%string) b /\ operator_use TK_DOUBLE_AMPERSAND b op)
     (replaced_by SError (txt "and"%string))) /\
  (In rule_logic_or rules ->
   exactly results (txt "twig-logic-or"%string)
     (fun op => exists b, In b (elements t) /\ visible (txt "twig-logic-or"%string) b /\ operator_use TK_DOUBLE_PIPE b op)
     (replaced_by SError (txt "or"%string))).
Proof. intros dbg src t cf rules results HP HI HN HR. split; intros Hin; eapply logic_exact; eauto. Qed.

Example C56_logic_case :
  says (txt "twig-logic-and"%string) (txt "{{ a && b || c && d and e }}"%string)
  = [mkShown SError (Some (5, 7)) [(5, 7, txt "and"%string)]; mkShown SError (Some (15, 17)) [(15, 17, txt "and"%string)]] /\
  says (txt "twig-logic-or"%string) (txt "{{ a && b || c && d and e }}"%string)
  = [mkShown SError (Some (10, 12)) [(10, 12, txt "or"%string)]].
Proof. vm_compute. split; reflexivity. Qed.

(** ** === and !== *)

Definition blank (c : N) : Prop := is_whitespace c = true.
(** [inner] is [s] without the white space around it. *)
Definition trimmed (s inner : text) : Prop :=
  exists pre post, s = pre ++ inner ++ post /\ Forall blank pre /\ Forall blank post /\
    (forall c r, inner = c :: r -> ~ blank c) /\ (forall c r, inner = r ++ [c] -> ~ blank c).

Lemma trim_start_spec s : exists pre, s = pre ++ trim_start s /\ Forall blank pre /\ (forall c r, trim_start s = c :: r -> ~ blank c).
Proof.
  unfold trim_start. induction s as [|c s (pre & E & F & G)]; cbn [skip_while].
  - exists []. split; [reflexivity|]. split; [constructor|]. discriminate.
  - destruct (is_whitespace c) eqn:W.
    + exists (c :: pre). split; [cbn [app]; now f_equal|]. split; [constructor; assumption|exact G].
    + exists []. split; [reflexivity|]. split; [constructor|]. intros c' r [= <- _]. unfold blank. rewrite W. discriminate.
Qed.
Lemma trim_spec s : trimmed s (trim s).
Proof.
  unfold trim. destruct (trim_start_spec s) as (pre & E & F & G). destruct (trim_start_spec (rev (trim_start s))) as (post & E' & F' & G').
  exists pre, (rev post). assert (E2 : trim_start s = rev (trim_start (rev (trim_start s))) ++ rev post).
  { rewrite <- rev_app_distr, <- E', rev_involutive. reflexivity. }
  split; [now rewrite <- E2|]. split; [exact F|]. split; [now apply Forall_rev|]. split.
  - intros c r X. apply (G c (r ++ rev post)). rewrite E2, X. reflexivity.
  - intros c r X. apply (G' c (rev r)). rewrite <- (rev_involutive (trim_start _)), X, rev_app_distr. reflexivity.
Qed.

(** The report for the operator [op]: with an edit that replaces the operator and its right
    operand, unless there is no right operand or the left operand is not an expression of its own. *)
Definition same_as_report (new : text) (op : elem) (x : shown) : Prop :=
  (exists b l r inner, parts b = [l; op; r] /\ a_node TWIG_EXPRESSION l /\ trimmed (el_text r) inner /\
     x = mkShown SError (Some (el_start op, el_end op)) [(el_start op, el_end r, new ++ txt "("%string ++ inner ++ txt ")"%string)]) \/
  (~ (exists b l r, parts b = [l; op; r] /\ a_node TWIG_EXPRESSION l) /\ at_element SError op x).

Lemma same_as_exact name k sh new : forall dbg src t cf rules results,
  parse_src dbg src = OK (t, []) -> incl rules RULE_DEFINITIONS -> NoDup (map rl_name rules) -> In (rule_same_as name k sh new) rules ->
  run_rules cf rules t = Done results ->
  exactly results name (fun op => exists b, In b (elements t) /\ visible name b /\ operator_use k b op) (same_as_report new).
Proof.
  intros dbg src t cf rules results HP HI HN Hin HR.
  assert (G : exactly results name (fun op => exists b, In b (elements t) /\ visible name b /\ (In b (elements t) /\ operator_use k b op)) (same_as_report new)).
  { apply (exact_node_rule cf rules t results _ _ (fun b op => In b (elements t) /\ operator_use k b op) _ HI HN HR Hin).
    - intros ctx e Hc He. cbn beta. destruct (cast TWIG_BINARY_EXPRESSION e) as [b|] eqn:C; cbn [obind].
      + apply cast_iff in C as [-> C]. destruct (rhs_parts dbg src t HP e He C) as (l & op & rest & E & -> & (k' & Ko) & Kl & R). cbn [obind].
        assert (U : forall x, operator_use k e x -> x = op).
        { intros x X. destruct (operator_unique _ _ _ HP k e x He X) as (l' & rest' & E'). rewrite E in E'. now injection E' as _ <- _. }
        destruct (kind_eqb (el_kind op) k) eqn:K; cbn [negb].
        * exists op. split; [split; [exact He|]; split; [exact C|]; split; [|rewrite E; cbn [In]; auto]|].
          -- destruct Ko as (s & Eo). exists s. apply kind_eqb_eq in K. unfold el_kind in K. rewrite Eo in *. cbn [tree_kind] in K. now subst.
          -- split; [intros y [_ Y]; auto|].
             assert (PE : forall b, In op (parts b) -> b = e).
             { intros b Hb. assert (X : In op (parts e)) by (rewrite E; cbn [In]; auto). apply part_parent in Hb, X. congruence. }
             destruct R as [[-> ->]|(r & -> & Hr & R1 & R2)].
             ++ right. split; [|reflexivity]. intros (b & l' & r' & E' & _).
                assert (b = e) as -> by (apply PE; rewrite E'; cbn [In]; auto). rewrite E in E'. discriminate E'.
             ++ destruct Kl as [Kl|Kl].
                ** rewrite (R1 Kl). left. exists e, l, r, (trim (el_text r)). split; [exact E|]. split; [exact Kl|]. split; [apply trim_spec|].
                   pose proof (parts_sorted e) as S. rewrite E in S. inversion S as [|? ? S1 _]; subst. inversion S1 as [|? ? _ F]; subst.
                   inversion F as [|? ? [B _] _]; subst. unfold el_end, el_start in *.
                   unfold show. cbn [rs_severity rs_primary rs_suggestions add_suggestion primary_note create_result option_map nt_start nt_end map sg_start sg_end sg_text app].
                   unfold el_end, el_start. rewrite Nat.min_l, Nat.max_r by lia. reflexivity.
                ** rewrite (R2 Kl). right. split; [|reflexivity]. intros (b & l' & r' & E' & Kl').
                   assert (b = e) as -> by (apply PE; rewrite E'; cbn [In]; auto). rewrite E in E'. injection E' as <- _.
                   discriminate (a_node_inj _ _ _ Kl Kl').
        * intros x [_ X]. pose proof (U x X) as ->. destruct X as (_ & (s & X) & _). unfold el_kind in K. rewrite X in K. cbn [tree_kind] in K.
          rewrite (proj2 (kind_eqb_eq k k) eq_refl) in K. discriminate K.
      + intros x [_ [X _]]. rewrite (cast_node _ _ X) in C. discriminate C.
    - intros e x [_ [[cs ->] _]]. reflexivity.
    - intros e e' x [_ (_ & _ & H)] [_ (_ & _ & H')]. apply part_parent in H, H'. congruence. }
  destruct G as (xs & X1 & X2 & X3). exists xs. split; [exact X1|]. split; [|exact X3]. intros x. rewrite X2. split; intros (b & B); exists b; tauto.
Qed.

Theorem C56_identity_operators_are_reported_exactly : forall dbg src t cf rules results,
  parse_src dbg src = OK (t, []) -> incl rules RULE_DEFINITIONS -> NoDup (map rl_name rules) ->
  run_rules cf rules t = Done results ->
  (In rule_use_is_same_as rules ->
   exactly results (txt "twig-use-is-same-as"%string)
     (fun op => exists b, In b (elements t) /\ visible (txt "twig-use-is-same-as"%string) b /\ operator_use TK_TRIPLE_EQUAL b op)
     (same_as_report (txt "is same as"%string))) /\
  (In rule_use_is_not_same_as rules ->
   exactly results (txt "twig-use-is-not-same-as"%string)
     (fun op => exists b, In b (elements t) /\ visible (txt "twig-use-is-not-same-as"%string) b /\
                  operator_use TK_EXCLAMATION_MARK_DOUBLE_EQUALS b op)
     (same_as_report (txt "is not same as"%string))).
Proof. intros dbg src t cf rules results HP HI HN HR. split; intros Hin; eapply same_as_exact; eauto. Qed.

(** The second operator is reported without an edit. *)
Example C56_identity_case :
  says (txt "twig-use-is-same-as"%string) (txt "{{ a === b + 1 }}{{ a + b === c }}"%string)
  = [mkShown SError (Some (5, 8)) [(5, 14, txt "is same as(b + 1)"%string)]; mkShown SError (Some (26, 29)) []] /\
  says (txt "twig-use-is-not-same-as"%string) (txt "{{ a !== b }}"%string)
  = [mkShown SError (Some (5, 8)) [(5, 10, txt "is not same as(b)"%string)]].
Proof. vm_compute. split; reflexivity. Qed.

Print Assumptions C53_unknown_filters_are_reported_exactly.
Print Assumptions C53_filters_of_apply_tags_are_checked_refuted.
Print Assumptions C54_unknown_tests_are_reported_exactly_partial.
Print Assumptions C54_unknown_tests_are_reported_exactly_refuted.
Print Assumptions C55_unknown_functions_are_reported_exactly_partial.
Print Assumptions C55_unknown_functions_are_reported_exactly_refuted.
Print Assumptions C56_logic_operators_are_replaced_exactly.
Print Assumptions C56_identity_operators_are_reported_exactly.
