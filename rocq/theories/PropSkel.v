(** Property theorems about the trees of arbitrary templates, with or without syntax errors:
    C45, and what follows from it for C14, C16 and C37. *)
From Coq Require Import NArith String Bool Arith Lia List.
Import ListNotations.
From Verif Require Import Text Kind Regex Lexer LexerProofs ParserApi GrammarExpr GrammarTags GrammarHtml
  Machine TreeMachine Simulation TreeSpec WpBase Total TotalHtml PropParser Schema Skeleton Precedence Shape ShapeStrict PropShape
  SkelBase SkelHtml Red RedFacts Typed Rule Rules Check Process DefaultConfig WalkSpec PropRun PropTree.
Local Notation length := List.length (only parsing).
Local Open Scope list_scope.
Local Open Scope cm_scope.

(** * Every node of every parse *)
Lemma sound_tree dbg src t errs : parse_src dbg src = OK (t, errs) -> every sound t.
Proof.
  intros H. unfold parse_src in H. destruct (lex src) as [|t0 T0] eqn:E0.
  { assert (E : parse_tokens dbg (parse_fuel []) [] = OK (Node ROOT [], [])) by (destruct dbg; vm_compute; reflexivity).
    rewrite E in H. injection H as <- <-. constructor; [|constructor]. split; [|exact I]. split; [apply sem_many_nil|discriminate]. }
  revert H. generalize (t0 :: T0), (@nil_cons _ t0 T0). clear. intros T HT H. cbv zeta in H.
  pose proof (parse_tokens_sim dbg (parse_fuel T) T) as Sim.
  pose proof (root_wp dbg T (not_eq_sym HT) (t_root T)) as W.
  assert (Hw : Total.wf T (t_root T)).
  { constructor; cbn [t_root t_rest t_snk t_items t_stack t_errs]; auto.
    - exists []. reflexivity.
    - exists []. split; [reflexivity|]. cbn. constructor.
    - exists Apart. split; [reflexivity|]. congruence. }
  specialize (W Hw eq_refl eq_refl eq_refl). unfold parse_fuel in *.
  pose proof (skel_root dbg T (2 * length T + 1) T) as S.
  specialize (S (Forall_nil _) (Forall_nil _) [] [(0, [])] (t_root T)). cbn [cur stk app] in S.
  destruct (run (tstep false dbg T) (2 * length T + 1) root_body (t_root T)) as [[u s]|q|]; cbn [holds] in *.
  - destruct W as ([W1 _ _ _ _] & Hd & Hs). rewrite W1 in Sim. specialize (Sim Hs Hd). rewrite Sim in H.
    injection H as <- He.
    destruct S as [_ (t' & _ & Ht & G & HR)]; auto.
    { constructor; cbn [t_root t_rest t_snk t_items t_stack t_nev ids marks flat_map app]; auto.
      - constructor; [auto|constructor]. }
    cbn [app] in Ht. rewrite Ht.
    assert (Tr : Forall trivia_token (t_snk s)).
    { rewrite <- (take_drop_trivia (t_snk s)), W1, Hd, app_nil_r. apply take_trivia_trivia. }
    assert (C : trees t' ++ map leaf (t_snk s) = trees (t' ++ [ITriv (t_snk s)])).
    { unfold trees. rewrite flat_map_app. cbn [flat_map item_trees]. now rewrite app_nil_r. }
    assert (G' : Forall (gooditem sound) (t' ++ [ITriv (t_snk s)])) by (apply Forall_app; split; [exact G|repeat constructor; exact Tr]).
    rewrite C. constructor; [|apply good_trees; exact G']. split; [|exact I]. split; [|discriminate]. cbn [skeleton].
    rewrite cn_parts, cn_app. cbn [cn flat_map item_part app]. rewrite app_nil_r. exact HR.
  - destruct q; try discriminate; try (rewrite Sim in H; discriminate). exfalso.
    destruct W as [[_ X]|[_ [X|[X|X]]]]; discriminate X.
  - rewrite Sim in H. discriminate.
Qed.

Lemma fits_tree dbg src t errs : parse_src dbg src = OK (t, errs) -> every fits t.
Proof.
  intros H. apply sound_tree in H. revert t H. clear. fix IH 1. intros [k s|k cs] H; constructor.
  - inversion H as [|? ? [F _] _]; subst. exact F.
  - assert (F : Forall (every sound) cs) by (inversion H; assumption). clear H.
    induction cs as [|c cs IHcs]; constructor; [apply IH; now inversion F|apply IHcs; now inversion F].
Qed.

(** * C45: the syntax tree of any template, erroneous or not, keeps the skeleton of the grammar *)

(** Leaving error nodes out, the child nodes of every node are those that Skeleton.v allows for
    its kind, in that order. *)
Theorem C45_every_tree_keeps_the_skeleton : forall dbg src t errs, parse_src dbg src = OK (t, errs) ->
  forall k cs, subtree (Node k cs) t -> exists m, skeleton k = Some m /\ sem m (parts cs).
Proof.
  intros dbg src t errs H k cs Hs. apply fits_tree in H. destruct (every_subtree _ _ _ _ H Hs) as [W _].
  destruct (skeleton k) as [m|]; [|contradiction]. eauto.
Qed.
(** Error nodes are flat: they contain tokens only. *)
Theorem C45_error_nodes_contain_only_tokens : forall dbg src t errs, parse_src dbg src = OK (t, errs) ->
  forall cs, subtree (Node ERROR cs) t -> forall c, In c cs -> exists k s, c = Leaf k s.
Proof.
  intros dbg src t errs H cs Hs c Hc. apply fits_tree in H. destruct (every_subtree _ _ _ _ H Hs) as [_ W].
  specialize (W eq_refl). destruct c as [k s|k l]; [eauto|]. exfalso.
  assert (X : In (Node k l) (nodes cs)) by (apply filter_In; auto). rewrite W in X. destruct X.
Qed.

(** * Consequences *)

(** Node kinds that can occur in a content model, and those that must. *)
Definition is_nd (k : kind) (s : sym) : bool := match s with Nd k' => kind_eqb k' k | Tok _ => false end.
Fixpoint may_occur (m : cm) (k : kind) : bool :=
  match m with
  | Eps | AnyTok => false
  | One l => existsb (is_nd k) l
  | Seq a b | Alt a b => may_occur a k || may_occur b k
  | Many a => may_occur a k
  end.
Fixpoint must_occur (m : cm) (k : kind) : bool :=
  match m with
  | Eps | AnyTok | Many _ => false
  | One l => forallb (is_nd k) l
  | Seq a b => must_occur a k || must_occur b k
  | Alt a b => must_occur a k && must_occur b k
  end.
Lemma may_occur_sound k : forall m l, sem m l -> In (Nd k) l -> may_occur m k = true.
Proof.
  induction m as [|ss| |a IHa b IHb|a IHa b IHb|a IHa]; intros l H I; cbn [sem may_occur] in *.
  - subst l. destruct I.
  - destruct H as (s & -> & Hs). destruct I as [->|[]]. apply existsb_exists. exists (Nd k). split; [exact Hs|].
    cbn. apply kind_eqb_refl.
  - destruct H as (k' & ->). destruct I as [I|[]]. discriminate.
  - destruct H as (x & y & -> & Hx & Hy). apply in_app_or in I. apply orb_true_iff. destruct I; eauto.
  - apply orb_true_iff. destruct H; eauto.
  - induction H as [|x y Hx _ IH]; [destruct I|]. apply in_app_or in I. destruct I; eauto.
Qed.
Lemma must_occur_sound k : forall m l, sem m l -> must_occur m k = true -> In (Nd k) l.
Proof.
  induction m as [|ss| |a IHa b IHb|a IHa b IHb|a IHa]; intros l H I; cbn [sem must_occur] in *; try discriminate.
  - destruct H as (s & -> & Hs). rewrite forallb_forall in I. specialize (I s Hs). destruct s as [k'|k']; [discriminate|].
    cbn in I. apply kind_eqb_eq in I. subst k'. now left.
  - destruct H as (x & y & -> & Hx & Hy). apply in_or_app. apply orb_true_iff in I. destruct I; eauto.
  - apply andb_true_iff in I as [I1 I2]. destruct H; eauto.
Qed.
Lemma parts_in cs k l : In (Node k l) cs -> k <> ERROR -> In (Nd k) (parts cs).
Proof. intros H E. apply in_flat_map. exists (Node k l). split; [exact H|]. rewrite part_node by exact E. now left. Qed.
Lemma parts_from cs k : In (Nd k) (parts cs) -> exists l, In (Node k l) cs.
Proof.
  intros H. apply in_flat_map in H as ([k' w|k' l] & Hc & H); [destruct H|]. cbn [part] in H.
  assert (E : k' = k) by (destruct k'; cbn in H; tauto || (destruct H as [H|H]; [congruence|destruct H])). subst k'. eauto.
Qed.

(** Parts that are always there, even in a broken template: a node of the first kind has a child
    of the second kind. *)
Definition required : list (kind * kind) :=
  [ (HTML_TAG, HTML_STARTING_TAG); (HTML_STARTING_TAG, HTML_ATTRIBUTE_LIST); (HTML_STRING, HTML_STRING_INNER);
    (TWIG_BLOCK, TWIG_STARTING_BLOCK); (TWIG_LITERAL_STRING, TWIG_LITERAL_STRING_INNER);
    (TWIG_LITERAL_ARRAY, TWIG_LITERAL_ARRAY_INNER); (TWIG_LITERAL_HASH, TWIG_LITERAL_HASH_ITEMS);
    (TWIG_LITERAL_HASH_PAIR, TWIG_LITERAL_HASH_KEY); (TWIG_FUNCTION_CALL, TWIG_OPERAND);
    (TWIG_FUNCTION_CALL, TWIG_ARGUMENTS); (TWIG_FILTER, TWIG_OPERAND); (TWIG_IF, TWIG_IF_BLOCK); (TWIG_IF, BODY);
    (TWIG_IF, TWIG_ENDIF_BLOCK); (TWIG_FOR, TWIG_FOR_BLOCK); (TWIG_FOR, BODY); (TWIG_FOR, TWIG_ENDFOR_BLOCK);
    (TWIG_SET, TWIG_SET_BLOCK); (TWIG_SET_BLOCK, TWIG_ASSIGNMENT);
    (LUDTWIG_DIRECTIVE_IGNORE, LUDTWIG_DIRECTIVE_RULE_LIST);
    (LUDTWIG_DIRECTIVE_FILE_IGNORE, LUDTWIG_DIRECTIVE_RULE_LIST) ].
Theorem C45_required_parts_are_there : forall dbg src t errs, parse_src dbg src = OK (t, errs) ->
  forall k k' cs, In (k, k') required -> subtree (Node k cs) t -> exists l, In (Node k' l) cs.
Proof.
  intros dbg src t errs H k k' cs R Hs. destruct (C45_every_tree_keeps_the_skeleton _ _ _ _ H _ _ Hs) as (m & E & S).
  apply parts_from. apply (must_occur_sound _ m _ S).
  assert (A : forallb (fun p => match skeleton (fst p) with Some m => must_occur m (snd p) | None => false end) required = true)
    by (vm_compute; reflexivity).
  rewrite forallb_forall in A. specialize (A _ R). cbn [fst snd] in A. rewrite E in A. exact A.
Qed.

(** A template with an unclosed element, a missing expression, a stray ending tag and an unknown tag. *)
Definition broken : text := txt
  "<div class=""a {{ }}""><p {% foo %}>{% if %}x{% else %}</div>{% block %}{{ a( }}"%string.
Fixpoint error_nodes (t : tree) : nat :=
  match t with
  | Leaf _ _ => 0
  | Node k cs => (if kind_eqb k ERROR then 1 else 0) + list_sum (map error_nodes cs)
  end.
Example C45_case : exists t errs, parse_src true broken = OK (t, errs) /\ 5 < length errs /\ 2 < error_nodes t /\ 20 < length (node_kinds t).
Proof.
  assert (E : match parse_src true broken with
              | OK (t, errs) => Nat.ltb 5 (length errs) && Nat.ltb 2 (error_nodes t) && Nat.ltb 20 (length (node_kinds t))
              | _ => false end = true) by (vm_compute; reflexivity).
  destruct (parse_src true broken) as [[t errs]|q|]; try discriminate. exists t, errs.
  apply andb_true_iff in E as [E E3]. apply andb_true_iff in E as [E1 E2]. apply Nat.ltb_lt in E1, E2, E3.
  split; [reflexivity|]. split; [exact E1|]. split; [exact E2|exact E3].
Qed.

(** * Nothing that indents is skipped *)

Definition indenting : list kind :=
  [BODY; TWIG_ARGUMENTS; TWIG_LITERAL_ARRAY_INNER; TWIG_LITERAL_HASH_ITEMS; TWIG_PROP_DECLARATION; HTML_ATTRIBUTE_LIST].
(** No node has both a directive and something that indents among its children. *)
Lemma never_together k m : skeleton k = Some m -> may_occur m LUDTWIG_DIRECTIVE_IGNORE = true ->
  forall i, In i indenting -> may_occur m i = false.
Proof.
  intros E D i I.
  assert (A : forallb (fun i => negb (may_occur m i)) indenting = true).
  { destruct k; try discriminate E; injection E as <-; try discriminate D; vm_compute; reflexivity. }
  rewrite forallb_forall in A. specialize (A _ I). now apply negb_true_iff in A.
Qed.
Lemma within_subtree root : forall p t off, within root (mkElem t off p) -> subtree t root.
Proof.
  induction p as [|c p IH]; intros t off [H1 H2]; cbn [el_tree el_path el_off rebuild placed] in *.
  - subst. constructor.
  - destruct H2 as [_ H2]. assert (S : subtree (Node (cr_kind c) (rev (cr_left c) ++ t :: cr_right c)) root).
    { apply (IH _ (cr_off c)). split; [exact H1|exact H2]. }
    clear -S. remember (Node _ _) as x eqn:E. induction S as [|k cs y Hy S IH].
    + rewrite E. apply sub_child with t; [apply in_or_app; right; now left|constructor].
    + apply sub_child with y; [exact Hy|apply IH; exact E].
Qed.
Theorem parsed_trees_are_well_nested : forall ctx dbg src t errs, parse_src dbg src = OK (t, errs) ->
  well_nested ctx (root_elem t).
Proof.
  intros ctx dbg src t errs H x Hx _ Hh.
  assert (L : In (el_kind x) indenting -> False).
  { intros I. unfold tree_hides in Hh. apply andb_true_iff in Hh as [N Hh].
    assert (NE : kind_eqb (el_kind x) ERROR = false).
    { destruct (kind_eqb (el_kind x) ERROR) eqn:Q; [|reflexivity]. apply kind_eqb_eq in Q. rewrite Q in I.
      repeat (destruct I as [I|I]; [discriminate I|]). destruct I. }
    rewrite NE in Hh. cbn [orb] in Hh.
    pose proof (preorder_within_elem t _ _ (within_root t) Hx) as W. destruct x as [tx off [|c p]]; cbn [names_before_node el_path] in Hh; [discriminate|].
    destruct (find is_node (cr_left c)) as [d|] eqn:F; [|discriminate]. destruct (is_directive d) eqn:D; [|discriminate].
    apply find_some in F as [F _]. destruct d as [|kd ld]; [discriminate|]. destruct kd; try discriminate.
    assert (S : subtree (Node (cr_kind c) (rev (cr_left c) ++ tx :: cr_right c)) t).
    { apply (within_subtree t p _ (cr_off c)). destruct W as [W1 W2]. cbn [el_tree el_path el_off rebuild placed] in *.
      destruct W2 as [_ W2]. split; [exact W1|exact W2]. }
    destruct (C45_every_tree_keeps_the_skeleton _ _ _ _ H _ _ S) as (m & E & P).
    unfold el_kind in I, NE. cbn [el_tree] in *. destruct tx as [|kx lx]; [discriminate|]. cbn [tree_kind] in *.
    assert (M1 : may_occur m LUDTWIG_DIRECTIVE_IGNORE = true).
    { apply (may_occur_sound _ _ _ P). apply (parts_in _ _ ld); [|discriminate]. apply in_or_app. left. now apply -> in_rev. }
    assert (M2 : may_occur m kx = true).
    { apply (may_occur_sound _ _ _ P). apply (parts_in _ _ lx); [apply in_or_app; right; now left|].
      intros ->. discriminate NE. }
    rewrite (never_together _ _ E M1 _ I) in M2. discriminate. }
  split.
  - unfold indents. destruct (el_kind x); try reflexivity; exfalso; apply L; cbn [In indenting]; tauto.
  - unfold substeps_of. destruct (kind_eqb (el_kind x) HTML_ATTRIBUTE_LIST) eqn:Q; [|reflexivity].
    apply kind_eqb_eq in Q. exfalso. apply L. rewrite Q. cbn [In indenting]. tauto.
Qed.

(** * C37 *)

(** The walk of the indentation rule ends normally on the tree of every template: exactly the
    first token of every line that is neither ignored nor protected is compared with the
    indentation its nesting asks for. *)
Theorem C37_indentation_level_never_underflows : forall ctx dbg src t errs, parse_file dbg src = Done (t, errs) ->
  indent_root ctx (root_elem t) = Done (line_results ctx true (filter (seen tree_hides) (RedFacts.elements t))).
Proof.
  intros ctx dbg src t errs H. apply C37_indentation_level_never_underflows_partial.
  unfold parse_file in H. destruct (parse_src dbg src) as [[t' e']| |] eqn:Q; try discriminate. injection H as -> ->.
  eapply parsed_trees_are_well_nested; exact Q.
Qed.

(** The counters of the walk are back at zero in the end. *)
Theorem C37_indentation_level_is_back_to_zero : forall ctx dbg src t errs, parse_file dbg src = Done (t, errs) ->
  exists s, walk true (indent_enter ctx) (indent_leave ctx) t 0 [] (mkIndent true 0 0 false false []) = Done s /\
            in_level s = 0 /\ in_substeps s = 0.
Proof.
  intros ctx dbg src t errs H. unfold parse_file in H. destruct (parse_src dbg src) as [[t' e']| |] eqn:Q; try discriminate.
  injection H as -> ->. pose proof (parsed_trees_are_well_nested ctx _ _ _ _ Q) as W.
  change (walk true (indent_enter ctx) (indent_leave ctx) t 0 [] (mkIndent true 0 0 false false []))
    with (walk_elem true (indent_enter ctx) (indent_leave ctx) (root_elem t) (mkIndent true 0 0 false false [])).
  rewrite (indent_walk ctx (root_elem t) _ W) by reflexivity. eexists. split; [reflexivity|]. split; reflexivity.
Qed.

(** * C14 *)

(** Running any of the rules over the tree of any template ends normally. *)
Theorem C14_rules_never_crash : forall cf dbg src t errs rules, parse_file dbg src = Done (t, errs) ->
  incl rules RULE_DEFINITIONS -> exists results, run_rules cf rules t = Done results.
Proof.
  intros cf dbg src t errs rules H R. destruct (run_rules cf rules t) as [rs|] eqn:E; [eauto|]. exfalso.
  destruct (C14_only_whole_tree_checks_can_fail cf rules t E) as (r & Hr & C). apply R in Hr.
  assert (N : is_node t = true).
  { unfold parse_file in H. destruct (parse_src dbg src) as [[t' e']| |] eqn:Q; try discriminate. injection H as -> ->.
    destruct (PropParser.outcome dbg src) as [(cs & e & E' & _)|(q & E' & _)]; rewrite Q in E'; [injection E' as -> _; reflexivity|discriminate]. }
  repeat (destruct Hr as [<-|Hr]; [try discriminate C|]).
  - rewrite (C37_indentation_level_never_underflows _ _ _ _ _ H) in C. discriminate.
  - destruct (C36_duplicate_blocks_are_counted_exactly cf t N) as (rs & R1 & _). congruence.
  - destruct (C36_duplicate_ids_are_counted_exactly cf t N) as (rs & R1 & _). congruence.
  - contradiction.
Qed.

(** Directives that switch everything off in front of an element, an attribute and a block, with an
    array, a call and a hash below them; all rules run. *)
Definition directives : text := txt "{# ludtwig-ignore #}<div {# ludtwig-ignore #}{% if a %}x{% endif %} id=""a"">"%string
  ++ [10%N] ++ txt "{# ludtwig-ignore #}{% block a %}{{ f([1, 2], {a: 1}) }}"%string ++ [10%N] ++ txt "{% endblock %}"%string
  ++ [10%N] ++ txt "<p>x</p></div>"%string ++ [10%N] ++ txt "{{ f([1,"%string ++ [10%N] ++ txt "2]) }}"%string.
Example C14_parsed_case : exists t r1 r2, parse_file true directives = Done (t, []) /\
  run_rules default_config RULE_DEFINITIONS t = Done [r1; r2] /\
  rs_rule r1 = txt "indentation"%string /\ rs_rule r2 = txt "twig-valid-function"%string.
Proof.
  assert (E : match parse_file true directives with
              | Done (t, []) => match run_rules default_config RULE_DEFINITIONS t with
                                | Done [r1; r2] => text_eqb (rs_rule r1) (txt "indentation"%string)
                                                   && text_eqb (rs_rule r2) (txt "twig-valid-function"%string)
                                | _ => false end
              | _ => false end = true) by (vm_compute; reflexivity).
  destruct (parse_file true directives) as [[t [|? ?]]|]; try discriminate.
  destruct (run_rules default_config RULE_DEFINITIONS t) as [[|r1 [|r2 [|? ?]]]|] eqn:R; try discriminate.
  apply andb_true_iff in E as [E1 E2]. apply text_eqb_eq in E1. apply text_eqb_eq in E2.
  exists t, r1, r2. repeat split; assumption.
Qed.

(** * C16 *)

(** Whatever the indentation rule reports about a template is outside of all parts whose directive
    names the rule, except parts in which, further to the left, another directive named it again. *)
Theorem C16_indentation_respects_directives_in_templates_partial : forall ctx dbg src t errs results r,
  parse_file dbg src = Done (t, errs) -> indent_root ctx (root_elem t) = Done results -> In r results ->
  exists x n, In x (RedFacts.elements t) /\ rs_primary r = Some n /\ nt_start n = el_start x /\
    forall a, In a (lineage x) -> tree_marks (txt "indentation"%string) a = true ->
              cleared_within tree_hides (tree_marks (txt "indentation"%string)) a x.
Proof.
  intros ctx dbg src t errs results r H. apply C16_indentation_respects_directives_partial.
  unfold parse_file in H. destruct (parse_src dbg src) as [[t' e']| |] eqn:Q; try discriminate. injection H as -> ->.
  eapply parsed_trees_are_well_nested; exact Q.
Qed.

Print Assumptions C45_every_tree_keeps_the_skeleton.
Print Assumptions C45_error_nodes_contain_only_tokens.
Print Assumptions C45_required_parts_are_there.
Print Assumptions C37_indentation_level_never_underflows.
Print Assumptions C37_indentation_level_is_back_to_zero.
Print Assumptions C14_rules_never_crash.
Print Assumptions C16_indentation_respects_directives_in_templates_partial.
