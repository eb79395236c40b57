(** C75 and a part of C22: what --fix does to valid templates when only one rule, or only rules of one
    kind, are active. *)
From Coq Require Import NArith String Bool Arith Lia List.
Import ListNotations.
From Verif Require Import Text Kind Regex Lexer LexerProofs ParserApi Machine TreeSpec DefaultConfig Layout Endings.
From Verif Require PropIndent PropEndings PropSkel.
From Verif Require Import Red Typed Rule Naming Rules Check Process RedFacts WalkSpec PropProcess PropRun PropTree PropOff Found FoundRun PropFound PropFound6 Collide PropCollide.
Local Open Scope list_scope.

(** With the active rules [definitions], --fix writes no text with a syntax error for a template without one. *)
Definition keeps_valid (dbg : bool) sort (cf : config) (definitions : list rule) : Prop :=
  forall inspect write_ok src t effects o new, parse_file dbg src = Done (t, []) ->
    run_analysis dbg sort cf true inspect write_ok definitions src = (effects, o) -> In (WriteFile new) effects ->
    exists t', parse_file dbg new = Done (t', []).

(** * Rules that suggest no edits *)
Definition silent_rules : list rule :=
  [rule_ignore_file_not_on_top; rule_block_duplicate; rule_duplicate_id; rule_variable_definition_naming;
   rule_valid_filter; rule_valid_test; rule_valid_function].

Lemma quiet_node name f ctx e : (forall ctx e r, f ctx e = Some r -> quiet r) -> suggestions_of (node_rule name f) ctx e = [].
Proof.
  intros H. unfold suggestions_of, node_rule. cbn [rl_node rl_token]. destruct (is_node (el_tree e)); [|reflexivity].
  destruct (f ctx e) as [r|] eqn:F; [|reflexivity]. cbn [flat_map]. now rewrite (H ctx e r F).
Qed.
Lemma variables_none ctx e : suggestions_of rule_variable_definition_naming ctx e = [].
Proof.
  unfold suggestions_of. cbn [rl_node rl_token rule_variable_definition_naming]. destruct (is_node (el_tree e)) eqn:N; [|reflexivity]. cbv beta. rewrite N. cbn [negb].
  assert (G : forall b, flat_map rs_suggestions (check_literal_names e b) = []).
  { intros b. apply quiet_flat. apply Forall_forall. intros r Hr. apply in_flat_map in Hr. destruct Hr as (n & _ & Hr).
    destruct (literal_name n); [|destruct Hr]. apply in_app_or in Hr.
    destruct Hr as [Hr|Hr]; match type of Hr with In _ (if ?b then _ else _) => destruct b end;
      destruct Hr as [<-|[]] || destruct Hr; reflexivity. }
  destruct (el_kind e); rewrite ?G; reflexivity.
Qed.
Lemma silent t rl : In rl silent_rules ->
  In rl RULE_DEFINITIONS /\ (forall ctx e, suggestions_of rl ctx e = []) /\
  (forall ctx roots, rl_root rl ctx (root_elem t) = Done roots -> flat_map rs_suggestions roots = []).
Proof.
  assert (NR : forall ctx roots, no_root ctx (root_elem t) = Done roots -> flat_map rs_suggestions roots = []).
  { intros ctx roots H. injection H as <-. reflexivity. }
  intros [K|[K|[K|[K|[K|[K|[K|[]]]]]]]]; subst rl; (split; [unfold RULE_DEFINITIONS; cbn [In]; tauto|]); split; try exact NR.
  - intros c e. apply quiet_node. clear. intros c x r H. step H. step H. step H; [|discriminate H]. injection H as <-. reflexivity.
  - intros c e. unfold suggestions_of. destruct (is_node (el_tree e)); reflexivity.
  - intros ctx roots. apply block_duplicate_quiet.
  - intros c e. unfold suggestions_of. destruct (is_node (el_tree e)); reflexivity.
  - intros ctx roots. apply duplicate_id_quiet.
  - apply variables_none.
  - intros c e. apply quiet_node. clear. intros c x r H. do 3 step H. step H; [|discriminate H]. injection H as <-. reflexivity.
  - intros c e. apply quiet_node. clear. intros c x r H. do 2 step H. step H; [discriminate H|]. do 2 step H. step H; [|discriminate H]. injection H as <-. reflexivity.
  - intros c e. apply quiet_node. clear. intros c x r H. do 1 step H. step H; [discriminate H|]. do 2 step H. step H; [|discriminate H]. injection H as <-. reflexivity.
Qed.
Lemma no_suggestions cf rules t results : incl rules silent_rules -> NoDup (map rl_name rules) -> run_rules cf rules t = Done results -> rule_suggestions results = [].
Proof.
  intros HI HN HR. assert (HK : incl rules RULE_DEFINITIONS) by (intros r Hr; exact (proj1 (silent t r (HI r Hr)))).
  destruct (rule_suggestions results) as [|p l] eqn:E; [reflexivity|]. exfalso.
  assert (Hp : In p (rule_suggestions results)) by (rewrite E; now left). apply in_flat_map in Hp as (r & Hr & Hp).
  destruct (proj1 (C52_reports_name_their_rule cf rules t results HK HR) r Hr) as (rl & Hl & En).
  destruct (silent t rl (HI rl Hl)) as (_ & S1 & S2).
  assert (Ho : In r (of_rule (rl_name rl) results)) by (apply filter_In; split; [exact Hr|]; apply text_eqb_eq; exact En).
  apply in_map_iff in Hp as (s & _ & Hs).
  assert (Hs' : In s (flat_map rs_suggestions (of_rule (rl_name rl) results))) by (apply in_flat_map; eauto).
  destruct (of_run cf rules t results HK HN HR rl Hl) as (roots & fl & Er & Eo). rewrite Eo, flat_map_app, (S2 _ _ Er) in Hs'. cbn [app] in Hs'.
  rewrite flat_map_flat in Hs'. apply in_flat_map in Hs' as (e & _ & He). destruct (switched_off _ _); [destruct He|].
  specialize (S1 (mkCtx cf (fl e)) e). unfold suggestions_of in S1. rewrite S1 in He. destruct He.
Qed.

Lemma not_sent b fc rs new : ~ In (WriteFile new) (produce_diagnostics b fc rs ++ [Send OutputStderrMessage]).
Proof.
  intros H. unfold produce_diagnostics in H. rewrite !in_app_iff, !in_map_iff in H.
  destruct H as [[H|[(x & H & _)|(x & H & _)]]|[H|[]]]; try discriminate H. destruct b; [destruct H as [H|[]]; discriminate H|destruct H].
Qed.
(** With seven of the rules, in any combination, --fix never writes at all, and never fails. *)
Theorem C75_silent_rules_never_write : forall dbg sort cf inspect write_ok definitions src t errs effects o,
  incl definitions silent_rules -> NoDup (map rl_name definitions) -> parse_file dbg src = Done (t, errs) ->
  run_analysis dbg sort cf true inspect write_ok definitions src = (effects, o) -> o = Ok tt /\ forall new, ~ In (WriteFile new) effects.
Proof.
  intros dbg sort cf inspect write_ok definitions src t errs effects o HI HN P A. unfold run_analysis in A. rewrite P in A.
  assert (HK : incl definitions RULE_DEFINITIONS) by (intros r Hr; exact (proj1 (silent t r (HI r Hr)))).
  destruct (active_known (root_elem t) definitions HK HN) as [A1 A2].
  destruct (PropSkel.C14_rules_never_crash cf _ _ _ _ (get_file_active_rules (root_elem t) definitions) P (fun r Hr => HK r (A1 r Hr))) as (rs & R). rewrite R in A.
  pose proof (no_suggestions cf _ t rs (fun r Hr => HI r (A1 r Hr)) A2 R) as E.
  unfold iteratively_apply_suggestions in A. cbn [fix_loop] in A. rewrite E in A. injection A as <- <-. split; [reflexivity|]. intros new. apply not_sent.
Qed.

(** * C22 and C75: rules that keep templates valid *)

(** Templates stay valid with any of the three rules for white space that is there (with the restrictions of C51
    and C68), and with any of the rules that only report.  Missing: the two rules about quotation marks, for
    which nothing is shown; the other ten rules do not have the property (below), and neither do all rules
    together (C22_fix_keeps_templates_valid_refuted). *)
Definition kept_by (cf : config) (definitions : list rule) (src : text) (t : tree) : Prop :=
  incl definitions silent_rules \/
  (incl definitions [rule_indentation; rule_whitespace_between_line_breaks] /\ PropIndent.directives_name_rules t) \/
  (incl definitions [rule_indentation; rule_whitespace_between_line_breaks; rule_line_ending] /\ cf_line_ending cf = UnixLF /\ steady src /\
     PropIndent.directives_name_rules t).
Theorem C22_fix_keeps_templates_valid_partial : forall dbg sort cf inspect write_ok definitions src t effects o new,
  sorts sort -> NoDup (map rl_name definitions) -> kept_by cf definitions src t -> parse_file dbg src = Done (t, []) ->
  run_analysis dbg sort cf true inspect write_ok definitions src = (effects, o) -> In (WriteFile new) effects ->
  exists t', parse_file dbg new = Done (t', []) /\ bare t = bare t'.
Proof.
  intros dbg sort cf inspect write_ok definitions src t effects o new S N K P A W. destruct K as [K|[[K D]|(K & U & St & D)]].
  - destruct (C75_silent_rules_never_write dbg sort cf inspect write_ok definitions src t [] effects o K N P A) as [_ X]. destruct (X new W).
  - exact (proj2 (PropIndent.C51_layout_fixes_keep_the_template dbg sort cf inspect write_ok definitions src t effects o S K P D A new W)).
  - exact (proj2 (PropEndings.C68_line_ending_fixes_keep_the_template_partial dbg sort cf inspect write_ok definitions src t effects o S U K St P D A new W)).
Qed.

(** * C75: rules that break templates on their own *)
Definition valid (s : text) : bool := match parse_file true s with Done (_, []) => true | _ => false end.
Definition broken_by (r : rule) (s : text) : bool :=
  valid s && match run_analysis true insertion_sort default_config true false true [r] s with (WriteFile new :: _, Ok tt) => negb (valid new) | _ => false end.
Lemma broken_by_sound r s : broken_by r s = true -> ~ keeps_valid true insertion_sort default_config [r].
Proof.
  unfold broken_by, valid. intros H K. apply andb_true_iff in H as [H1 H2].
  destruct (parse_file true s) as [[t [|? ?]]|] eqn:P; try discriminate H1.
  destruct (run_analysis true insertion_sort default_config true false true [r] s) as [effects o] eqn:A.
  destruct effects as [|[| |new] effects]; try discriminate H2. destruct (K false true s t (WriteFile new :: effects) o new P A (or_introl eq_refl)) as (t' & P').
  rewrite P' in H2. destruct o as [[]| |]; discriminate H2.
Qed.
Definition breaking : list (rule * text) :=
  [(rule_block_line_breaks, txt "1 < {% block b %}2{% endblock %}"%string);
   (rule_block_name_snake_case, txt "{% block Set %}2{% endblock %}"%string);
   (rule_attribute_name_kebab_case, txt "<p :A></p>"%string);
   (rule_logic_and, txt "{{ 1&&b }}"%string);
   (rule_logic_or, txt "{{ 1||b }}"%string);
   (rule_prefer_shopware_extends, txt "{% extends a %}"%string);
   (rule_use_is_same_as, txt "{{ a===b }}"%string);
   (rule_use_is_not_same_as, txt "{{ a!==b }}"%string);
   (rule_json_encode_escape_js, txt "{{ a|json_encode|raw() }}"%string);
   (rule_hash_key_no_quotes, txt "{{ {'"%string ++ [233%N] ++ txt "': 2} }}"%string)].
(** Each of these rules alone turns a valid template into one with a syntax error. *)
Theorem C75_single_rules_keep_templates_valid_refuted : forall r, In r (map fst breaking) -> ~ keeps_valid true insertion_sort default_config [r].
Proof.
  assert (G : forallb (fun p => broken_by (fst p) (snd p)) breaking = true) by (vm_compute; reflexivity).
  intros r Hr. apply in_map_iff in Hr as (p & <- & Hp). rewrite forallb_forall in G. exact (broken_by_sound _ _ (G p Hp)).
Qed.
Lemma breaking_rules : map fst breaking =
  [rule_block_line_breaks; rule_block_name_snake_case; rule_attribute_name_kebab_case; rule_logic_and; rule_logic_or;
   rule_prefer_shopware_extends; rule_use_is_same_as; rule_use_is_not_same_as; rule_json_encode_escape_js; rule_hash_key_no_quotes].
Proof. reflexivity. Qed.

(** * C76: replacing an operator keeps its operands *)

(** The operators of a tree, without the spelling of and and or. *)
Fixpoint operations (t : tree) : nat :=
  match t with
  | Leaf _ _ => 0
  | Node k cs => (if kind_eqb k TWIG_BINARY_EXPRESSION then 1 else 0) + fold_right (fun c n => operations c + n) 0 cs
  end.
(** In full: the text written has as many binary operations as the given one.  Refuted, without any syntax error:
    the new operator becomes a part of the names beside it. *)
Theorem C76_operators_are_replaced_faithfully_refuted : forall r, In r [rule_logic_and; rule_logic_or] ->
  ~ (forall src t effects o new t', parse_file true src = Done (t, []) ->
       run_analysis true insertion_sort default_config true false true [r] src = (effects, o) -> In (WriteFile new) effects ->
       parse_file true new = Done (t', []) -> operations t = operations t').
Proof.
  assert (G : forall r s n, match parse_file true s, run_analysis true insertion_sort default_config true false true [r] s, parse_file true n with
    | Done (t, []), (WriteFile new :: _, _), Done (t', []) => text_eqb new n && negb (Nat.eqb (operations t) (operations t'))
    | _, _, _ => false end = true ->
    ~ (forall src t effects o new t', parse_file true src = Done (t, []) ->
       run_analysis true insertion_sort default_config true false true [r] src = (effects, o) -> In (WriteFile new) effects ->
       parse_file true new = Done (t', []) -> operations t = operations t')).
  { intros r s n E H. destruct (parse_file true s) as [[t [|? ?]]|] eqn:P; try discriminate E.
    destruct (run_analysis true insertion_sort default_config true false true [r] s) as [effects o] eqn:A.
    destruct effects as [|[| |new] effects]; try discriminate E. destruct (parse_file true n) as [[t' [|? ?]]|] eqn:P'; try discriminate E.
    apply andb_true_iff in E as [E1 E2]. apply text_eqb_eq in E1. subst n.
    rewrite (H s t _ o new t' P A (or_introl eq_refl) P'), Nat.eqb_refl in E2. discriminate E2. }
  intros r [<-|[<-|[]]].
  - apply (G rule_logic_and (txt "{{ a&&b }}"%string) (txt "{{ aandb }}"%string)). vm_compute. reflexivity.
  - apply (G rule_logic_or (txt "{{ a||b }}"%string) (txt "{{ aorb }}"%string)). vm_compute. reflexivity.
Qed.

(** * Concrete cases *)

(** A template about which three of the silent rules report something; nothing is written. *)
Definition chatty : text := txt "<a id=x></a><b id=x></b>{% block c %}{% endblock %}{% block c %}{% endblock %}{{ 1|nope }}"%string.
Example C75_case_silent : incl silent_rules silent_rules /\ NoDup (map rl_name silent_rules).
Proof.
  split; [apply incl_refl|].
  repeat (constructor; [intros H; cbn [map In] in H; repeat (destruct H as [H|H]; [discriminate H|]); destruct H|]); constructor.
Qed.
Example C75_case_silent_reports : exists t, parse_file true chatty = Done (t, []) /\
  exists rs, run_rules default_config silent_rules t = Done rs /\ 3 <= List.length rs.
Proof.
  assert (E : match parse_file true chatty with
    | Done (t, []) => match run_rules default_config silent_rules t with Done rs => Nat.leb 3 (List.length rs) | _ => false end
    | _ => false end = true) by (vm_compute; reflexivity).
  destruct (parse_file true chatty) as [[t [|? ?]]|] eqn:P; try discriminate E. exists t. split; [reflexivity|].
  destruct (run_rules default_config silent_rules t) as [rs|] eqn:R; try discriminate E. exists rs. split; [reflexivity|]. now apply Nat.leb_le.
Qed.
(** The cases of C51 and C68 meet the hypotheses of the partial theorem, and something is written in both. *)
Example C22_case_valid : exists t rest, kept_by default_config PropIndent.layout_rules PropIndent.untidy t /\
  parse_file true PropIndent.untidy = Done (t, []) /\
  run_analysis true insertion_sort default_config true false true PropIndent.layout_rules PropIndent.untidy = (WriteFile PropIndent.tidy :: rest, Ok tt).
Proof.
  destruct PropIndent.C51_case as (t & _ & _ & P & D & _ & rest & A). exists t, rest. split; [|split; assumption].
  right. left. split; [apply incl_refl|exact D].
Qed.
Example C22_case_valid_endings : exists t rest, kept_by default_config PropEndings.layout_rules_3 PropEndings.mixed t /\
  parse_file true PropEndings.mixed = Done (t, []) /\
  run_analysis true insertion_sort default_config true false true PropEndings.layout_rules_3 PropEndings.mixed = (WriteFile PropEndings.unmixed :: rest, Ok tt).
Proof.
  destruct PropEndings.C68_case_line_endings as (t & rest & _ & U & _ & S & P & D & A). exists t, rest. split; [|split; assumption].
  right. right. split; [apply incl_refl|]. split; [exact U|]. split; assumption.
Qed.

Print Assumptions C75_silent_rules_never_write.
Print Assumptions C22_fix_keeps_templates_valid_partial.
Print Assumptions C75_single_rules_keep_templates_valid_refuted.
Print Assumptions C76_operators_are_replaced_faithfully_refuted.
