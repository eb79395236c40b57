(** C23: which suggestions of one rule can collide, so that --fix gives up on a file. *)
From Coq Require Import NArith String Bool Arith Lia Permutation List.
Import ListNotations.
From Verif Require Import Text Kind Regex Lexer LexerProofs ParserApi Machine TreeSpec DefaultConfig.
From Verif Require Schema.
From Verif Require Import Red Typed Rule Naming Rules Check Process RedFacts WalkSpec PropProcess PropRun PropOff Found FoundRun PropFound PropFound5 Collide Chain Sides.
Local Open Scope list_scope.

(** * The causes *)

(** Two comparisons with the operator [k], one in the other. *)
Definition comparison_in_comparison (k : kind) (t : tree) : Prop :=
  exists b op b' op', In b (elements t) /\ operator_use k b op /\ operator_use k b' op' /\ In b' (preorder_elem b) /\ b' <> b.
(** The one is in the right operand of the other. *)
Definition comparison_in_right_operand (k : kind) (t : tree) : Prop :=
  exists b l op r b' op', In b (elements t) /\ operator_use k b op /\ parts b = [l; op; r] /\ In b' (preorder_elem r) /\ operator_use k b' op'.
(** Two raw texts (of scripts and the like) are side by side and the second one begins with [x]. *)
Definition raw_texts_meet (t : tree) (x : elem) : Prop :=
  exists c a y l r, In c (elements t) /\ children_with_tokens c = l ++ a :: y :: r /\ a_node HTML_RAW_TEXT a /\ a_node HTML_RAW_TEXT y /\ first_token y = Some x.
(** A line break [x] is looked at for the end of a block and for the beginning of a block; this needs
    syntax errors or raw texts side by side. *)
Definition line_break_of_two (cf : config) (t : tree) (errs : list perror) : Prop :=
  exists b b' x n n', In b (elements t) /\ In b' (elements t) /\ a_node TWIG_BLOCK b /\ a_node TWIG_BLOCK b' /\
    wanted_at cf b Before x n /\ wanted_at cf b' After x n' /\ el_kind x = TK_LINE_BREAK /\ (errs = [] -> raw_texts_meet t x).
Definition cause (cf : config) (t : tree) (errs : list perror) (name : text) : Prop :=
  (exists k, ((name = txt "twig-use-is-same-as"%string /\ k = TK_TRIPLE_EQUAL) \/
              (name = txt "twig-use-is-not-same-as"%string /\ k = TK_EXCLAMATION_MARK_DOUBLE_EQUALS)) /\
     comparison_in_comparison k t /\ (errs = [] -> comparison_in_right_operand k t)) \/
  (name = txt "twig-block-line-breaks"%string /\ line_break_of_two cf t errs).
Lemma two_sides dbg src t errs cf : parse_src dbg src = OK (t, errs) -> shared_line_break t cf -> line_break_of_two cf t errs.
Proof.
  intros HP (b & s & b' & s' & x & n & n' & Hb & Hb' & K & K' & N & W & W' & Kx).
  assert (G : forall b b' n n', In b (elements t) -> In b' (elements t) -> a_node TWIG_BLOCK b -> a_node TWIG_BLOCK b' ->
    wanted_at cf b Before x n -> wanted_at cf b' After x n' -> line_break_of_two cf t errs).
  { intros b0 b0' m m' H0 H0' K0 K0' W0 W0'. exists b0, b0', x, m, m'. do 7 (split; [assumption|]). intros ->.
    destruct (before_after dbg src t HP cf b0 b0' x m m' H0 H0' K0 K0' W0 W0') as (c & a & y & Hc & (l & r & E) & R). exists c, a, y, l, r. auto. }
  destruct s, s'.
  - rewrite (before_once dbg src t errs HP cf b b' x n n' Hb Hb' K K' W W') in N. contradiction.
  - exact (G b b' n n' Hb Hb' K K' W W').
  - exact (G b' b n' n Hb' Hb K' K W' W).
  - rewrite (after_once dbg src t errs HP cf b b' x n n' Hb Hb' K K' W W') in N. contradiction.
Qed.
Lemma collision_cause dbg src t errs cf name : parse_src dbg src = OK (t, errs) -> collision t errs cf name -> cause cf t errs name.
Proof.
  intros HP [(-> & H1 & H2)|[(-> & H1 & H2)|(-> & H)]].
  - left. exists TK_TRIPLE_EQUAL. auto.
  - left. exists TK_EXCLAMATION_MARK_DOUBLE_EQUALS. auto.
  - right. split; [reflexivity|]. eapply two_sides; eauto.
Qed.

Lemma fix_loop_error dbg sort cf : forall n i fc rs dirty e, fix_loop dbg sort cf n i fc rs dirty = Err e -> e <> MaxApplyIteration -> consistent dbg cf fc rs ->
  exists k fc' rs' sorted, k < n /\ rounds dbg sort cf k fc rs fc' rs' /\ sort (rule_suggestions rs') = Done sorted /\ select_suggestions sorted = inl e.
Proof.
  induction n as [|n IH]; intros i fc rs dirty e E Ne C; [injection E as <-; contradiction|].
  cbn [fix_loop] in E. destruct (rule_suggestions rs) as [|s sugs] eqn:R; [discriminate E|].
  destruct (sort (s :: sugs)) as [sorted|] eqn:S; [|discriminate E].
  destruct (select_suggestions sorted) as [e'|chosen] eqn:Se.
  - injection E as ->. exists 0, fc, rs, sorted. rewrite R. split; [lia|]. split; [constructor|]. auto.
  - destruct (apply_suggestions chosen (fc_source fc)) as [src|] eqn:A; [|discriminate E].
    destruct (parse_file dbg src) as [[t errs]|] eqn:P; [|discriminate E].
    destruct (run_rules cf (fc_rules fc) t) as [rs1|] eqn:Q; [|discriminate E].
    destruct (IH _ _ _ _ _ E Ne (conj P Q)) as (k & fc' & rs' & so & K & D & S' & Se'). exists (Datatypes.S k), fc', rs', so.
    split; [lia|]. split; [|auto]. apply (rounds_more dbg sort cf k fc rs (mkFile src t errs (fc_rules fc)) rs1); [|exact D].
    split; [rewrite R; discriminate|]. split; [reflexivity|]. split; [split; assumption|]. exists sorted, chosen. rewrite R. auto.
Qed.
Lemma active_known root definitions : incl definitions RULE_DEFINITIONS -> NoDup (map rl_name definitions) ->
  incl (get_file_active_rules root definitions) definitions /\ NoDup (map rl_name (get_file_active_rules root definitions)).
Proof.
  intros _ N. unfold get_file_active_rules. destruct (disabled_rules _ _) as [dis|]; [|split; [intros x []|constructor]]. split.
  - intros x Hx. now apply filter_In in Hx as [Hx _].
  - induction definitions as [|r l IH]; [constructor|]. cbn [map filter] in *. inversion N as [|? ? N1 N2]; subst.
    destruct (negb _); [|auto]. cbn [map]. constructor; [|auto]. intros H. apply N1. apply in_map_iff in H as (x & <- & H).
    apply filter_In in H as [H _]. apply in_map. exact H.
Qed.

(** If --fix gives up with a collision, then after some of its rounds there is a text in which one of
    three rules collides with itself: one of the rules about === and !==, because of one such
    comparison inside of another one, in its right operand unless the text has syntax errors, or
    the rule about line breaks around blocks, because a line break is both after the end of a block
    and in front of another one; the latter needs a text with syntax errors (or raw texts side by side).
    The rule named is a configured one and nothing is written.  Missing for C23 in full: it is false
    (see PropProcess, and below for the third rule); not shown: that raw texts are never side by side
    without syntax errors. *)
Theorem C23_only_comparisons_and_blocks_collide_partial : forall dbg sort cf inspect write_ok definitions content effects name,
  sorts sort -> incl definitions RULE_DEFINITIONS -> NoDup (map rl_name definitions) ->
  run_analysis dbg sort cf true inspect write_ok definitions content = (effects, Err (OverlappingSuggestion name)) ->
  effects = [] /\ In name (map rl_name definitions) /\
  exists t errs rs k fc' rs', let rules := get_file_active_rules (root_elem t) definitions in
    parse_src dbg content = OK (t, errs) /\ run_rules cf rules t = Done rs /\
    rounds dbg sort cf k (mkFile content t errs rules) rs fc' rs' /\ k < 10 /\
    parse_src dbg (fc_source fc') = OK (fc_tree fc', fc_errors fc') /\
    cause cf (fc_tree fc') (fc_errors fc') name.
Proof.
  intros dbg sort cf inspect write_ok definitions content effects name C HI HN E. unfold run_analysis in E.
  destruct (parse_file dbg content) as [[t errs]|] eqn:P; [|discriminate E].
  destruct (run_rules cf (get_file_active_rules (root_elem t) definitions) t) as [rs|] eqn:R; [|discriminate E].
  destruct (active_known (root_elem t) definitions HI HN) as [A1 A2].
  unfold iteratively_apply_suggestions in E.
  destruct (fix_loop dbg sort cf 10 0 (mkFile content t errs (get_file_active_rules (root_elem t) definitions)) rs false) as [[[[fc rs2] dirty] i]|e|] eqn:F.
  - destruct dirty; [destruct write_ok|]; discriminate E.
  - injection E as <- ->. destruct (fix_loop_error dbg sort cf _ _ _ _ _ _ F ltac:(discriminate) (conj P R)) as (k & fc' & rs' & sorted & K & D & S & Se).
    destruct (rounds_consistent _ _ _ _ _ _ _ _ D (conj P R)) as [[P' R'] Er]. cbn [fc_rules] in Er.
    assert (P'' : parse_src dbg (fc_source fc') = OK (fc_tree fc', fc_errors fc')).
    { unfold parse_file in P'. destruct (parse_src dbg (fc_source fc')) as [[? ?]| |]; [|discriminate P'..]. injection P' as -> ->. reflexivity. }
    destruct (C _ _ S) as [Pm _]. rewrite Er in R'.
    destruct (all_collisions dbg (fc_source fc') _ _ cf _ rs' sorted name P'' (fun x Hx => HI x (A1 x Hx)) A2 R' Pm Se) as [Co Na].
    split; [reflexivity|]. split; [apply (incl_map _ A1); exact Na|]. exists t, errs, rs, k, fc', rs'. cbv zeta.
    split; [|split; [exact R|split; [exact D|split; [lia|split; [exact P''|eapply collision_cause; eauto]]]]].
    unfold parse_file in P. destruct (parse_src dbg content) as [[? ?]| |]; [|discriminate P..]. injection P as -> ->. reflexivity.
  - discriminate E.
Qed.

(** Without those three rules --fix never gives up because of a collision. *)
Theorem C23_other_rules_never_collide : forall dbg sort cf inspect write_ok definitions content effects name,
  sorts sort -> incl definitions RULE_DEFINITIONS -> NoDup (map rl_name definitions) ->
  ~ In (txt "twig-use-is-same-as"%string) (map rl_name definitions) -> ~ In (txt "twig-use-is-not-same-as"%string) (map rl_name definitions) ->
  ~ In (txt "twig-block-line-breaks"%string) (map rl_name definitions) ->
  run_analysis dbg sort cf true inspect write_ok definitions content <> (effects, Err (OverlappingSuggestion name)).
Proof.
  intros dbg sort cf inspect write_ok definitions content effects name C HI HN N1 N2 N3 E.
  destruct (C23_only_comparisons_and_blocks_collide_partial _ _ _ _ _ _ _ _ _ C HI HN E) as (_ & Hn & t & errs & rs & k & fc' & rs' & _ & _ & _ & _ & _ & Ca).
  destruct Ca as [(kd & [[-> _]|[-> _]] & _)|[-> _]]; contradiction.
Qed.

(** The hypothesis of the first theorem holds for the collision of PropProcess, and for !== in a string
    of a function call with all rules; the other one holds for the rules without the three. *)
Definition deep : text := txt "<p>{{ a !== f([b, c !== d]) }}</p>"%string.
Example C23_case_collides :
  run_analysis true insertion_sort default_config true false true RULE_DEFINITIONS deep = ([], Err (OverlappingSuggestion (txt "twig-use-is-not-same-as"%string))).
Proof. vm_compute. reflexivity. Qed.
(** The third cause does occur: the tag is not closed before the comment, the line breaks in front of it
    are after the one block and, with the comment, before the other one. *)
Definition unclosed : text := txt "<div {% block a %}{% endblock %}

<!-- c -->{% block b %}{% endblock %}</div>"%string.
Theorem C23_blocks_collide_refuted :
  run_analysis true insertion_sort default_config true false true RULE_DEFINITIONS unclosed = ([], Err (OverlappingSuggestion (txt "twig-block-line-breaks"%string))).
Proof. vm_compute. reflexivity. Qed.
Example C23_case_one_error : match parse_src true unclosed with OK (_, errs) => List.length errs | _ => 0 end = 1.
Proof. vm_compute. reflexivity. Qed.
Definition rest_of_rules : list rule :=
  filter (fun r => negb (mem_text (rl_name r) [txt "twig-use-is-same-as"%string; txt "twig-use-is-not-same-as"%string; txt "twig-block-line-breaks"%string])) RULE_DEFINITIONS.
Example C23_case_rest_size : List.length rest_of_rules = 19.
Proof. reflexivity. Qed.
Lemma filter_incl {A} (f : A -> bool) l : incl (filter f l) l.
Proof. intros x Hx. now apply filter_In in Hx as [Hx _]. Qed.
Example C23_case_rest_known : incl rest_of_rules RULE_DEFINITIONS.
Proof. exact (filter_incl _ RULE_DEFINITIONS). Qed.
Lemma filter_names (f : rule -> bool) : forall l, NoDup (map rl_name l) -> NoDup (map rl_name (filter f l)).
Proof.
  induction l as [|r l IH]; [constructor|]. cbn [map filter]. intros N. inversion N as [|? ? N1 N2]; subst. destruct (f r); [|auto]. cbn [map].
  constructor; [|auto]. intros H. apply N1. apply in_map_iff in H as (x & <- & H). apply filter_In in H as [H _]. now apply in_map.
Qed.
Example C23_case_rest_named_once : NoDup (map rl_name rest_of_rules).
Proof. exact (filter_names _ RULE_DEFINITIONS names_distinct). Qed.
Example C23_case_rest_without : forall n, In n [txt "twig-use-is-same-as"%string; txt "twig-use-is-not-same-as"%string; txt "twig-block-line-breaks"%string] ->
  existsb (text_eqb n) (map rl_name rest_of_rules) = false.
Proof. intros n [<-|[<-|[<-|[]]]]; vm_compute; reflexivity. Qed.
Example C23_case_rest_runs :
  run_analysis true insertion_sort default_config true false true rest_of_rules (txt "<p id='x'>{{ {'k': a && b || 'c'} }}</p>"%string)
  = ([WriteFile (txt "<p id=""x"">{{ {k: a and b or 'c'} }}</p>"%string); Send OutputStderrMessage], Ok tt).
Proof. vm_compute. reflexivity. Qed.

Print Assumptions C23_only_comparisons_and_blocks_collide_partial.
Print Assumptions C23_other_rules_never_collide.
Print Assumptions C23_blocks_collide_refuted.
