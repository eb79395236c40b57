(** C72: fixing the layout comes to an end. *)
From Coq Require Import NArith String Bool Arith Lia Permutation List.
Import ListNotations.
From Verif Require Import Text Kind Regex Lexer LexerProofs ParserApi Machine TreeSpec Layout.
From Verif Require DefaultConfig PropShape PropLexer PropParser PropLines LexLayout LayoutSim PropIndent PropSkel.
From Verif Require Import Relaid Snug.
From Verif Require Import Red Typed Rule Rules Check Process RedFacts WalkSpec PropProcess PropRun PropTree PropOff Found PropFound PropFound6 Tidy Nested Rounds Settled Finish.
Local Notation length := List.length (only parsing).
Local Open Scope list_scope.

Section Analysis.
  Context (dbg : bool) (sort : list (text * suggestion) -> out (list (text * suggestion))) (cf : config) (rules : list rule).
  Hypothesis So : sorts sort.
  Hypothesis St : stable sort.
  Hypothesis NC : forall l, sort l <> Crashed.
  Hypothesis I : incl rules PropIndent.layout_rules.
  Hypothesis N : NoDup (map rl_name rules).
  Hypothesis Cnt : 0 < cf_indentation_count cf.
  Context (src : text) (t : tree).
  Hypothesis P : parse_file dbg src = Done (t, []).
  Hypothesis ND : directives_elsewhere t.
  Hypothesis NI : no_interpolation src.

  Definition active := get_file_active_rules (root_elem t) rules.
  Lemma active_rules : incl active PropIndent.layout_rules /\ NoDup (map rl_name active).
  Proof.
    unfold active, get_file_active_rules. destruct (disabled_rules _ _) as [dis|]; [|split; [intros x []|constructor]]. split.
    - intros x Hx. apply filter_In in Hx. apply I, Hx.
    - clear -N. induction rules as [|r l IH]; [constructor|]. cbn [map filter] in *. inversion N as [|? ? N1 N2]; subst.
      destruct (negb _); [|auto]. cbn [map]. constructor; [|auto]. intros H. apply N1. apply in_map_iff in H as (x & <- & H).
      apply filter_In in H as [H _]. apply in_map. exact H.
  Qed.
  Lemma parsed : parse_src dbg src = OK (t, []).
  Proof. pose proof P as Q. unfold parse_file in Q. destruct (parse_src dbg src) as [[? ?]| |]; try discriminate. now injection Q as -> ->. Qed.
  Lemma analysis_ends inspect write_ok effects o : run_analysis dbg sort cf true inspect write_ok rules src = (effects, o) ->
    exists rs new t' rs' dirty j, state dbg cf active src t rs /\ state dbg cf active new t' rs' /\ rule_suggestions rs' = [] /\ j <= 2 /\ (0 < j <-> dirty = true) /\ (j = 0 -> new = src) /\
      iteratively_apply_suggestions dbg sort cf (mkFile src t [] active) rs = Ok (mkFile new t' [] active, rs', dirty, j) /\
      (effects, o) = if dirty then if write_ok then (WriteFile new :: produce_diagnostics inspect (mkFile new t' [] active) rs' ++ [Send OutputStderrMessage], Ok tt)
                                  else ([WriteFile new], Err FileWrite)
                    else (produce_diagnostics inspect (mkFile new t' [] active) rs' ++ [Send OutputStderrMessage], Ok tt).
  Proof.
    intros A. unfold run_analysis in A. rewrite P in A. fold active in A. destruct active_rules as [IA NA].
    destruct (PropSkel.C14_rules_never_crash cf _ _ _ _ active P) as (rs & R).
    { intros r Hr. destruct (IA r Hr) as [<-|[<-|[]]]; cbn [In RULE_DEFINITIONS]; tauto. }
    rewrite R in A.
    assert (S : state dbg cf active src t rs) by (split; [exact parsed|auto]).
    destruct (loop_ends dbg sort cf active So St NC IA NA Cnt src t rs 10 S) as (new & t' & rs' & dirty & j & E & L & Em & S' & _ & Z & Dt); [lia|].
    exists rs, new, t', rs', dirty, j. unfold iteratively_apply_suggestions in *. cbn [Nat.eqb] in *. rewrite E in A. split; [exact S|]. split; [exact S'|]. split; [exact Em|]. split; [exact L|]. split; [exact Dt|]. split; [exact Z|].
    split; [exact E|]. symmetry. cbn [fc_source] in A. exact A.
  Qed.
End Analysis.

(** With the indentation rule and the rule for white space on empty lines, --fix reaches a text it has nothing
    more to say about after at most two rounds, for every template without syntax errors and
    interpolation whose directives are about other rules, every width of indentation but none, and
    every stable sorting function. *)
Theorem C72_two_rounds_suffice_partial : forall dbg sort cf rules src t rs,
  sorts sort -> stable sort -> (forall l, sort l <> Crashed) -> incl rules PropIndent.layout_rules -> NoDup (map rl_name rules) -> 0 < cf_indentation_count cf ->
  parse_file dbg src = Done (t, []) -> directives_elsewhere t -> no_interpolation src -> run_rules cf rules t = Done rs ->
  exists fc rs' dirty rounds, iteratively_apply_suggestions dbg sort cf (mkFile src t [] rules) rs = Ok (fc, rs', dirty, rounds) /\ rounds <= 2 /\ rule_suggestions rs' = [].
Proof.
  intros dbg sort cf rules src t rs So St NC I N Cnt P ND NI R.
  assert (S : state dbg cf rules src t rs) by (split; [exact (parsed dbg src t P)|auto]).
  destruct (loop_ends dbg sort cf rules So St NC I N Cnt src t rs 10 S) as (new & t' & rs' & dirty & j & E & L & Em & _); [lia|].
  exists (mkFile new t' [] rules), rs', dirty, j. auto.
Qed.

(** So --fix does not give up. *)
Theorem C72_layout_fixes_finish_partial : forall dbg sort cf inspect write_ok rules src t effects o,
  sorts sort -> stable sort -> (forall l, sort l <> Crashed) -> incl rules PropIndent.layout_rules -> NoDup (map rl_name rules) -> 0 < cf_indentation_count cf ->
  parse_file dbg src = Done (t, []) -> directives_elsewhere t -> no_interpolation src ->
  run_analysis dbg sort cf true inspect write_ok rules src = (effects, o) ->
  o = Ok tt \/ (o = Err FileWrite /\ write_ok = false).
Proof.
  intros dbg sort cf inspect write_ok rules src t effects o So St NC I N Cnt P ND NI A.
  destruct (analysis_ends dbg sort cf rules So St NC I N Cnt src t P ND NI inspect write_ok effects o A) as (rs & new & t' & rs' & dirty & j & _ & _ & _ & _ & _ & _ & _ & E).
  destruct dirty; [destruct write_ok|]; injection E as _ ->; auto.
Qed.

(** And what it leaves is in order: the lines start with the white space the configuration wants (outside
    preformatted text), and no empty line has white space - provided the two rules are not switched off for the file. *)
Theorem C72_layout_fixes_tidy_partial : forall dbg sort cf inspect rules src t effects o,
  sorts sort -> stable sort -> (forall l, sort l <> Crashed) -> incl rules PropIndent.layout_rules -> NoDup (map rl_name rules) -> 0 < cf_indentation_count cf ->
  parse_file dbg src = Done (t, []) -> directives_elsewhere t -> no_interpolation src ->
  run_analysis dbg sort cf true inspect true rules src = (effects, o) ->
  exists new t', (In (WriteFile new) effects \/ (new = src /\ forall w, ~ In (WriteFile w) effects)) /\ parse_file dbg new = Done (t', []) /\
    (In rule_indentation (get_file_active_rules (root_elem t) rules) ->
       forall x, first_in_line (tokens_of (elements t')) x -> ~ preformatted x -> leading x = wanted cf x) /\
    (In rule_whitespace_between_line_breaks (get_file_active_rules (root_elem t) rules) -> forall q, ~ blank_line new q).
Proof.
  intros dbg sort cf inspect rules src t effects o So St NC I N Cnt P ND NI A.
  destruct (analysis_ends dbg sort cf rules So St NC I N Cnt src t P ND NI inspect true effects o A) as (rs & new & t' & rs' & dirty & j & S & (P' & ND' & NI' & R') & Em & _ & Dt & Z & _ & E).
  destruct (active_rules rules I N t) as [IA NA]. exists new, t'. split; [|split; [now apply parsed_file|split]].
  - destruct dirty; injection E as -> _; [left; now left|]. right. split.
    + apply Z. destruct j as [|j]; [reflexivity|]. assert (X : false = true) by (apply Dt; lia). discriminate X.
    + intros w H. unfold produce_diagnostics in H. rewrite !in_app_iff, !in_map_iff in H.
      destruct H as [[H|[(y & H & _)|(y & H & _)]]|[H|[]]]; try discriminate H. destruct inspect; [destruct H as [H|[]]; discriminate H|destruct H].
  - intros Ir x F Pr. destruct (list_eq_dec N.eq_dec (leading x) (wanted cf x)) as [Q|Q]; [exact Q|]. exfalso.
    assert (LO : line_out t' cf x).
    { split; [exact F|]. split; [|left; exact Q]. destruct (indent_protected x) eqn:Ip; [|reflexivity]. destruct Pr. now apply protected_iff. }
    destruct (indentation_back dbg new t' cf (active rules t) rs' P' ND' IA NA R' x Ir LO) as (p & Hp & _). rewrite Em in Hp. destruct Hp.
  - intros Ir q BL. destruct (empty_back dbg new t' cf (active rules t) rs' P' ND' IA NA R' q Ir BL) as (p & Hp & _). rewrite Em in Hp. destruct Hp.
Qed.

(** * A case *)
Fixpoint adjacent (l : list token) : bool :=
  match l with
  | a :: (b :: _) as r => (kind_eqb (tk_kind a) TK_HASHTAG && kind_eqb (tk_kind b) TK_OPEN_CURLY) || adjacent r
  | _ => false
  end.
Lemma adjacent_sound src : adjacent (nontriv (lex src)) = false -> no_interpolation src.
Proof.
  intros H pre a b post E [Ka Kb]. rewrite E in H. clear E. induction pre as [|p pre IH].
  - cbn [app adjacent] in H. rewrite Ka, Kb, !kind_eqb_refl in H. discriminate H.
  - apply IH. destruct (pre ++ a :: b :: post) eqn:Q; [destruct pre; discriminate Q|]. cbn [app] in H. rewrite Q in H. cbn [adjacent] in H. apply orb_false_iff in H. apply H.
Qed.
Fixpoint elsewhereb (t : tree) : bool :=
  match t with
  | Leaf _ _ => true
  | Node k cs => (negb (kind_eqb k LUDTWIG_DIRECTIVE_IGNORE)
                  || (negb (Nat.eqb (length (tree_rules (Node k cs))) 0) && negb (mem_text indentation_name (tree_rules (Node k cs)))
                      && negb (mem_text empty_lines_name (tree_rules (Node k cs)))))
                 && forallb elsewhereb cs
  end.
Lemma mem_text_absent x l : mem_text x l = false -> ~ In x l.
Proof.
  intros M I. assert (mem_text x l = true) as E; [|rewrite E in M; discriminate M]. unfold mem_text. apply existsb_exists. exists x. split; [exact I|now apply text_eqb_eq].
Qed.
Lemma elsewhereb_sound t : elsewhereb t = true -> directives_elsewhere t.
Proof.
  intros H cs S. remember (Node _ cs) as x eqn:E. induction S as [|k cs' y Hy S IH].
  - subst. cbn [elsewhereb] in H. apply andb_true_iff in H as [H _]. rewrite kind_eqb_refl in H. cbn [negb orb] in H.
    apply andb_true_iff in H as [H H3]. apply andb_true_iff in H as [H1 H2]. apply negb_true_iff in H1, H2, H3. split.
    + intros Q. rewrite Q in H1. discriminate H1.
    + split; now apply mem_text_absent.
  - cbn [elsewhereb] in H. apply andb_true_iff in H as [_ H]. rewrite forallb_forall in H. auto.
Qed.

Definition crooked : text :=
  txt "<div>"%string ++ [10%N] ++ txt "<p a=""1"""%string ++ [10%N; 9%N] ++ txt "b>  x</p>"%string ++ [10%N; 9%N; 32%N; 10%N]
  ++ txt "{% block c %}"%string ++ [13%N; 10%N] ++ txt "<!-- y"%string ++ [10%N] ++ txt "-->"%string ++ [10%N]
  ++ txt "{# ludtwig-ignore twig-valid-function #}"%string ++ [10%N] ++ txt "      {{ f(1) }} y"%string ++ [10%N] ++ txt "{% endblock %}"%string ++ [10%N] ++ txt "  </div>"%string.
Definition straight : text :=
  txt "<div>"%string ++ [10%N] ++ txt "    <p a=""1"""%string ++ [10%N] ++ txt "       b>  x</p>"%string ++ [10%N; 10%N]
  ++ txt "    {% block c %}"%string ++ [13%N; 10%N] ++ txt "        <!-- y"%string ++ [10%N] ++ txt "        -->"%string ++ [10%N]
  ++ txt "        {# ludtwig-ignore twig-valid-function #}"%string ++ [10%N] ++ txt "        {{ f(1) }} y"%string ++ [10%N] ++ txt "    {% endblock %}"%string ++ [10%N] ++ txt "</div>"%string.
(** Two rounds are needed here: the indentation rule wants the white space on the empty line changed, the other one removed. *)
Example C72_case : exists t rs, sorts insertion_sort /\ stable insertion_sort /\ (forall l, insertion_sort l <> Crashed) /\ NoDup (map rl_name PropIndent.layout_rules) /\
  0 < cf_indentation_count DefaultConfig.default_config /\ parse_file true crooked = Done (t, []) /\ directives_elsewhere t /\ PropIndent.has_directive t = true /\ no_interpolation crooked /\
  run_rules DefaultConfig.default_config PropIndent.layout_rules t = Done rs /\
  (exists fc rs', iteratively_apply_suggestions true insertion_sort DefaultConfig.default_config (mkFile crooked t [] PropIndent.layout_rules) rs = Ok (fc, rs', true, 2)) /\
  exists rest, run_analysis true insertion_sort DefaultConfig.default_config true false true PropIndent.layout_rules crooked = (WriteFile straight :: rest, Ok tt).
Proof.
  assert (E : match parse_file true crooked with
              | Done (t, []) => (elsewhereb t && PropIndent.has_directive t) && match run_rules DefaultConfig.default_config PropIndent.layout_rules t with
                 | Done rs => match iteratively_apply_suggestions true insertion_sort DefaultConfig.default_config (mkFile crooked t [] PropIndent.layout_rules) rs with
                    | Ok (_, _, true, 2) => true | _ => false end | _ => false end
              | _ => false end
    && negb (adjacent (nontriv (lex crooked)))
    && match run_analysis true insertion_sort DefaultConfig.default_config true false true PropIndent.layout_rules crooked with
       | (WriteFile s :: _, Ok tt) => text_eqb s straight | _ => false end = true) by (vm_compute; reflexivity).
  apply andb_true_iff in E as [E E3]. apply andb_true_iff in E as [E1 E2].
  destruct (parse_file true crooked) as [[t [|? ?]]|] eqn:P; try discriminate E1. apply andb_true_iff in E1 as [E0 E1]. apply andb_true_iff in E0 as [E0 E4].
  destruct (run_rules DefaultConfig.default_config PropIndent.layout_rules t) as [rs|] eqn:R; [|discriminate E1]. exists t, rs.
  split; [exact insertion_sort_sorts|]. split; [exact insertion_sort_stable|]. split; [intros l X; discriminate X|].
  split; [constructor; [intros [H|[]]; discriminate H|constructor; [intros []|constructor]]|].
  split; [apply Nat.ltb_lt; vm_compute; reflexivity|].
  split; [reflexivity|]. split; [now apply elsewhereb_sound|]. split; [exact E4|]. split; [exact (adjacent_sound _ (proj1 (negb_true_iff _) E2))|].
  split; [exact R|]. split.
  - destruct (iteratively_apply_suggestions _ _ _ _ rs) as [[[[fc rs'] [|]] [|[|[|?]]]]| |]; try discriminate E1. eauto.
  - destruct (run_analysis true insertion_sort DefaultConfig.default_config true false true PropIndent.layout_rules crooked) as [[|[ev| |s] rest] o];
      try discriminate E3. destruct o as [[]| |]; try discriminate E3. apply text_eqb_eq in E3. subst s. eauto.
Qed.

(** With all rules it does not always finish: of carriage returns in a row before a line break, one is removed in each round. *)
Theorem C72_fixes_finish_refuted : exists src t, parse_file true src = Done (t, []) /\
  snd (run_analysis true insertion_sort DefaultConfig.default_config true false true RULE_DEFINITIONS src) = Err MaxApplyIteration.
Proof.
  set (src := repeat 13%N 10 ++ [10%N]). exists src.
  assert (E1 : match parse_file true src with Done (_, []) => true | _ => false end = true) by (vm_compute; reflexivity).
  destruct (parse_file true src) as [[t [|? ?]]|]; try discriminate E1. exists t. split; [reflexivity|]. vm_compute. reflexivity.
Qed.
(** And not with an indentation by no spaces: the indentation rule then asks for the change of a line
    which is as it should be, again and again. *)
Theorem C72_layout_fixes_finish_refuted : exists src t, parse_file true src = Done (t, []) /\ directives_elsewhere t /\ no_interpolation src /\
  snd (run_analysis true insertion_sort no_indentation true false true PropIndent.layout_rules src) = Err MaxApplyIteration.
Proof.
  set (src := txt "<p>"%string ++ [10%N] ++ txt "b"%string ++ [10%N] ++ txt "</p>"%string). exists src.
  assert (E1 : match parse_file true src with Done (t, []) => elsewhereb t | _ => false end = true) by (vm_compute; reflexivity).
  destruct (parse_file true src) as [[t [|? ?]]|]; try discriminate E1. exists t. split; [reflexivity|]. split; [now apply elsewhereb_sound|].
  split; [apply adjacent_sound; vm_compute; reflexivity|]. vm_compute. reflexivity.
Qed.

Print Assumptions C72_two_rounds_suffice_partial.
Print Assumptions C72_layout_fixes_finish_partial.
Print Assumptions C72_layout_fixes_tidy_partial.
Print Assumptions C72_fixes_finish_refuted.
Print Assumptions C72_layout_fixes_finish_refuted.
