(** C89: a setting acts on its own rules only. *)
From Coq Require Import NArith Arith String Bool List.
Import ListNotations.
From Verif Require Import Text Kind Lexer LexerProofs Machine TreeSpec Red RedFacts Rule Rules Check Process DefaultConfig.
From Verif Require PropRun PropOff PropSkel.
Local Open Scope string_scope.
Local Open Scope list_scope.

(** * What the documentation says *)

(** The settings of ludtwig-config.toml (sections format and twig). *)
Inductive setting : Set :=
| LineEnding | IndentationMode | IndentationCount | IndentChildrenOfBlocks | LinebreaksAroundBlocks
| TwigQuotation | HtmlQuotation | ValidFilters | ValidTests | ValidFunctions.

Definition same (s : setting) (a b : config) : Prop :=
  match s with
  | LineEnding => cf_line_ending a = cf_line_ending b
  | IndentationMode => cf_indentation_mode a = cf_indentation_mode b
  | IndentationCount => cf_indentation_count a = cf_indentation_count b
  | IndentChildrenOfBlocks => indent_children_of_blocks a = indent_children_of_blocks b
  | LinebreaksAroundBlocks => linebreaks_around_blocks a = linebreaks_around_blocks b
  | TwigQuotation => twig_quotation a = twig_quotation b
  | HtmlQuotation => html_quotation a = html_quotation b
  | ValidFilters => valid_filters a = valid_filters b
  | ValidTests => valid_tests a = valid_tests b
  | ValidFunctions => valid_functions a = valid_functions b
  end.

(** The rule that the comment above the setting names (ludtwig-config.toml: checked by ...). *)
Definition checked_by (s : setting) : text :=
  txt match s with
  | LineEnding => "line-ending"
  | IndentationMode | IndentationCount | IndentChildrenOfBlocks => "indentation"
  | LinebreaksAroundBlocks => "twig-block-line-breaks"
  | TwigQuotation => "twig-string-quotation"
  | HtmlQuotation => "html-string-quotation"
  | ValidFilters => "twig-valid-filter"
  | ValidTests => "twig-valid-test"
  | ValidFunctions => "twig-valid-function"
  end.

(** The rules on which a setting acts: the one that is named, and one more for the line ending. *)
Definition acts_on (s : setting) (rule_name : text) : Prop :=
  rule_name = checked_by s \/ (s = LineEnding /\ rule_name = txt "twig-block-line-breaks").

(** Nothing that acts on the rule differs between the configurations. *)
Definition same_for (rule_name : text) (a b : config) : Prop :=
  forall s, acts_on s rule_name -> same s a b.

(** * Proofs *)
Definition alike (a b : config) (r : rule) : Prop :=
  forall w e, rl_node r (mkCtx a w) e = rl_node r (mkCtx b w) e /\ rl_token r (mkCtx a w) e = rl_token r (mkCtx b w) e
    /\ rl_root r (mkCtx a w) e = rl_root r (mkCtx b w) e.

Ltac off := intros _ w e; repeat split; reflexivity.
Local Lemma alike_definitions a b : Forall (fun r => same_for (rl_name r) a b -> alike a b r) RULE_DEFINITIONS.
Proof.
  destruct a as [r1 l1 m1 c1 i1 b1 t1 h1 f1 s1 u1], b as [r2 l2 m2 c2 i2 b2 t2 h2 f2 s2 u2].
  unfold RULE_DEFINITIONS.
  apply Forall_cons; [off|]. (* ignore-file-not-on-top *)
  apply Forall_cons; [off|]. (* whitespace-between-line-breaks *)
  apply Forall_cons. { intros S w e. pose proof (S LineEnding (or_introl eq_refl)) as E. cbn [same cf_line_ending] in E. subst l2. repeat split; reflexivity. }
  apply Forall_cons. { intros S w e. pose proof (S IndentationMode (or_introl eq_refl)) as E1. pose proof (S IndentationCount (or_introl eq_refl)) as E2.
    pose proof (S IndentChildrenOfBlocks (or_introl eq_refl)) as E3. cbn [same cf_indentation_mode cf_indentation_count indent_children_of_blocks] in E1, E2, E3.
    subst m2 c2 i2. repeat split; reflexivity. }
  apply Forall_cons. { intros S w e. pose proof (S LinebreaksAroundBlocks (or_introl eq_refl)) as E1. pose proof (S LineEnding (or_intror (conj eq_refl eq_refl))) as E2.
    cbn [same cf_line_ending linebreaks_around_blocks] in E1, E2. subst b2 l2. repeat split; reflexivity. }
  apply Forall_cons; [off|]. (* block-name-snake-case *)
  apply Forall_cons; [off|]. (* attribute-name-kebab-case *)
  apply Forall_cons; [off|]. (* logic-and *)
  apply Forall_cons; [off|]. (* logic-or *)
  apply Forall_cons. { intros S w e. pose proof (S TwigQuotation (or_introl eq_refl)) as E. cbn [same twig_quotation] in E. subst t2. repeat split; reflexivity. }
  apply Forall_cons. { intros S w e. pose proof (S HtmlQuotation (or_introl eq_refl)) as E. cbn [same html_quotation] in E. subst h2. repeat split; reflexivity. }
  apply Forall_cons; [off|]. (* hash-key-no-quotes *)
  apply Forall_cons; [off|]. (* prefer-shopware-extends *)
  apply Forall_cons; [off|]. (* use-is-same-as *)
  apply Forall_cons; [off|]. (* use-is-not-same-as *)
  apply Forall_cons; [off|]. (* block-duplicate *)
  apply Forall_cons; [off|]. (* json-encode-escape-js *)
  apply Forall_cons; [off|]. (* duplicate-id *)
  apply Forall_cons; [off|]. (* variable-definition-naming *)
  apply Forall_cons. { intros S w e. pose proof (S ValidFilters (or_introl eq_refl)) as E. cbn [same valid_filters] in E. subst f2. repeat split; reflexivity. }
  apply Forall_cons. { intros S w e. pose proof (S ValidTests (or_introl eq_refl)) as E. cbn [same valid_tests] in E. subst s2. repeat split; reflexivity. }
  apply Forall_cons. { intros S w e. pose proof (S ValidFunctions (or_introl eq_refl)) as E. cbn [same valid_functions] in E. subst u2. repeat split; reflexivity. }
  apply Forall_nil.
Qed.

Local Lemma run_alike a b rules t : Forall (alike a b) rules -> run_rules a rules t = run_rules b rules t.
Proof.
  intros A. unfold run_rules. destruct rules as [|r0 rs] eqn:ER; [reflexivity|]. rewrite <- ER in *. clear ER r0 rs.
  assert (R : run_roots a rules (root_elem t) = run_roots b rules (root_elem t)).
  { induction A as [|r l Hr _ IH]; cbn [run_roots]; [reflexivity|]. destruct (Hr false (root_elem t)) as (_ & _ & E). rewrite E, IH. reflexivity. }
  rewrite R. destruct (run_roots b rules (root_elem t)) as [roots|]; [|reflexivity].
  destruct (PropRun.run_walk_spec a rules t roots) as (s & -> & _ & _ & E1).
  destruct (PropRun.run_walk_spec b rules t roots) as (s' & -> & _ & _ & E2).
  f_equal. rewrite E1, E2. f_equal. apply flat_map_ext. intros e. cbv beta. unfold PropRun.checked. match goal with |- context [mkCtx a ?x] => generalize x end. intros w. clear R E1 E2.
  induction A as [|r l Hr _ IH]; cbn [flat_map]; [reflexivity|]. destruct (Hr w e) as (N & T & _).
  rewrite IH. f_equal. destruct (PropRun.switched_off (rl_name r) e); [reflexivity|]. destruct (is_node (el_tree e)); assumption.
Qed.

Local Lemma same_alike a b rules : incl rules RULE_DEFINITIONS -> (forall r, In r rules -> same_for (rl_name r) a b) -> Forall (alike a b) rules.
Proof.
  intros I S. apply Forall_forall. intros r H. pose proof (alike_definitions a b) as D. rewrite Forall_forall in D. apply D; auto.
Qed.

(** Only the rules [p]. *)
Local Lemma run_without cf t ns : forall rules results, incl rules RULE_DEFINITIONS -> run_rules cf rules t = Done results ->
  run_rules cf (filter (fun r => negb (mem_text (rl_name r) ns)) rules) t = Done (filter (fun r => negb (mem_text (rs_rule r) ns)) results).
Proof.
  assert (F : forall A (p q : A -> bool) l, filter p (filter q l) = filter (fun x => q x && p x) l).
  { intros A p q l. induction l as [|x l IH]; [reflexivity|]. cbn [filter]. destruct (q x); cbn [filter andb]; [destruct (p x)|]; now rewrite IH. }
  induction ns as [|n ns IH]; intros rules results I H.
  - assert (T : forall A (l : list A), filter (fun _ => true) l = l) by (intros A l; induction l as [|x l IHl]; cbn [filter]; [|rewrite IHl]; reflexivity).
    unfold mem_text. cbn [existsb negb]. rewrite !T. exact H.
  - pose proof (PropOff.C52_switching_off_removes_exactly_its_reports cf rules t results n I H) as H1.
    apply IH in H1; [|intros x X; apply filter_In in X; apply I; tauto]. rewrite !F in H1.
    erewrite (filter_ext _ (fun r => negb (mem_text (rl_name r) (n :: ns)))) in H1; [erewrite (filter_ext _ (fun r => negb (mem_text (rs_rule r) (n :: ns)))) in H1; [exact H1|]|].
    + intros r. unfold mem_text. cbn [existsb]. rewrite negb_orb. f_equal. f_equal. apply eq_true_iff_eq. rewrite !text_eqb_eq. split; congruence.
    + intros r. unfold mem_text. cbn [existsb]. rewrite negb_orb. f_equal. f_equal. apply eq_true_iff_eq. rewrite !text_eqb_eq. split; congruence.
Qed.

(** The reports of one rule. *)
Definition reports_of (n : text) (l : list result) : list result := filter (fun r => text_eqb (rs_rule r) n) l.

(** Two configurations, the same rules and template: the reports of each rule for which nothing
    differs that acts on it are the same, word for word and in the same order. *)
Theorem C89_settings_act_on_their_rules_only : forall a b rules t results results', incl rules RULE_DEFINITIONS ->
  run_rules a rules t = Done results -> run_rules b rules t = Done results' ->
  forall n, same_for n a b -> reports_of n results = reports_of n results'.
Proof.
  intros a b rules t results results' I A B n S.
  set (ns := filter (fun x => negb (text_eqb x n)) (map rl_name rules)).
  assert (K : forall x, In x (map rl_name rules) -> negb (mem_text x ns) = text_eqb x n).
  { intros x X. destruct (text_eqb x n) eqn:E.
    - apply negb_true_iff. unfold mem_text. destruct (existsb _ ns) eqn:M; [|reflexivity]. apply existsb_exists in M as (y & Y & Exy).
      apply text_eqb_eq in Exy. subst y. apply filter_In in Y as [_ Y]. rewrite E in Y. discriminate Y.
    - apply negb_false_iff. unfold mem_text. apply existsb_exists. exists x. split; [|now apply text_eqb_eq].
      apply filter_In. split; [exact X|]. now rewrite E. }
  assert (R : forall l, (forall r, In r l -> exists rl, In rl rules /\ rs_rule r = rl_name rl) ->
    filter (fun r => negb (mem_text (rs_rule r) ns)) l = reports_of n l).
  { intros l Hl. apply filter_ext_in. intros r Hr. apply K. destruct (Hl r Hr) as (rl & J & ->). now apply in_map. }
  pose proof (run_without a t ns rules results I A) as A1. pose proof (run_without b t ns rules results' I B) as B1.
  rewrite (R results (proj1 (PropOff.C52_reports_name_their_rule a rules t results I A))) in A1.
  rewrite (R results' (proj1 (PropOff.C52_reports_name_their_rule b rules t results' I B))) in B1.
  rewrite (run_alike a b) in A1.
  - rewrite A1 in B1. injection B1 as B1. exact B1.
  - apply same_alike.
    + intros x X. apply filter_In in X. apply I. tauto.
    + intros r Hr. apply filter_In in Hr as [Hr E]. rewrite K in E by now apply in_map. apply text_eqb_eq in E. now rewrite E.
Qed.

(** If nothing differs that acts on one of the rules that are used, everything is the same: what is
    sent, what is written with --fix and how it ends. *)
Theorem C89_other_settings_change_nothing : forall a b rules, incl rules RULE_DEFINITIONS ->
  (forall r, In r rules -> same_for (rl_name r) a b) ->
  forall dbg sort fix_opt inspect write_ok content,
    run_analysis dbg sort a fix_opt inspect write_ok rules content = run_analysis dbg sort b fix_opt inspect write_ok rules content.
Proof.
  intros a b rules I S dbg sort fix_opt inspect write_ok content.
  assert (E : forall l t, incl l rules -> run_rules a l t = run_rules b l t).
  { intros l t L. apply run_alike, same_alike; [intros x X; apply I, L, X|intros r Hr; apply S, L, Hr]. }
  assert (F : forall n i fc rs d, incl (fc_rules fc) rules -> fix_loop dbg sort a n i fc rs d = fix_loop dbg sort b n i fc rs d).
  { induction n as [|n IH]; intros i fc rs d L; cbn [fix_loop]; [reflexivity|].
    destruct (rule_suggestions rs) as [|x l]; [reflexivity|]. destruct (sort (x :: l)) as [sorted|]; [|reflexivity].
    destruct (select_suggestions sorted) as [e|chosen]; [reflexivity|]. destruct (apply_suggestions chosen (fc_source fc)) as [src|]; [|reflexivity].
    destruct (parse_file dbg src) as [[t errs]|]; [|reflexivity]. rewrite (E _ t L). destruct (run_rules b (fc_rules fc) t) as [rs'|]; [|reflexivity].
    apply IH. exact L. }
  unfold run_analysis. destruct (parse_file dbg content) as [[t errs]|]; [|reflexivity].
  assert (L : incl (get_file_active_rules (root_elem t) rules) rules).
  { unfold get_file_active_rules. destruct (disabled_rules _ []); [|intros x []]. intros x X. apply filter_In in X. tauto. }
  rewrite (E _ t L). destruct (run_rules b _ t) as [rs|]; [|reflexivity]. destruct fix_opt; [|reflexivity].
  unfold iteratively_apply_suggestions. rewrite F; [reflexivity|exact L].
Qed.

(** * Every setting does act *)

(** [cf] with another value for one setting. *)
Definition other (s : setting) (cf : config) : config :=
  let c := mkConfig (active_rules cf) in
  let l := cf_line_ending cf in let m := cf_indentation_mode cf in let n := cf_indentation_count cf in
  let i := indent_children_of_blocks cf in let k := linebreaks_around_blocks cf in
  let t := twig_quotation cf in let h := html_quotation cf in
  let f := valid_filters cf in let ts := valid_tests cf in let fs := valid_functions cf in
  match s with
  | LineEnding => c WindowsCRLF m n i k t h f ts fs
  | IndentationMode => c l ITab n i k t h f ts fs
  | IndentationCount => c l m (S n) i k t h f ts fs
  | IndentChildrenOfBlocks => c l m n (negb i) k t h f ts fs
  | LinebreaksAroundBlocks => c l m n i (negb k) t h f ts fs
  | TwigQuotation => c l m n i k QDouble h f ts fs
  | HtmlQuotation => c l m n i k t QSingle f ts fs
  | ValidFilters => c l m n i k t h [txt "f"] ts fs
  | ValidTests => c l m n i k t h f [txt "t"] fs
  | ValidFunctions => c l m n i k t h f ts [txt "g"]
  end.
Lemma other_only s : forall s', s' <> s -> same s' default_config (other s default_config).
Proof. intros s' N. destruct s, s'; try (exfalso; apply N; reflexivity); reflexivity. Qed.

(** A template in which all of them matter. *)
Definition sample : text :=
  txt "{% block a %}" ++ [10%N] ++ txt "<p id='x'>{{ u|f }}</p>" ++ [10%N] ++ txt "{{ g(""s"") is t }}" ++ [10%N] ++ txt "{% endblock %}" ++ [10%N]
  ++ txt "{% block b %}{% endblock %}" ++ [10%N].
(** What the edits of the reports write, and how many reports there are. *)
Definition digest (l : list result) : nat * text := (List.length l, flat_map (fun r => flat_map sg_text (rs_suggestions r)) l).
Definition digest_of (defs : list rule) (src : text) (cf : config) (n : text) : option (nat * text) :=
  match parse_file true src with
  | Done (t, []) => match run_rules cf defs t with Done l => Some (digest (reports_of n l)) | Crashed => None end
  | _ => None
  end.
Definition differs (defs : list rule) (src : text) (a b : config) (n : text) : bool :=
  match digest_of defs src a n, digest_of defs src b n with
  | Some (p, q), Some (p', q') => negb (Nat.eqb p p' && text_eqb q q')
  | _, _ => false
  end.
Local Lemma differs_spec defs src a b n : differs defs src a b n = true ->
  exists t results results', parse_file true src = Done (t, []) /\ run_rules a defs t = Done results /\ run_rules b defs t = Done results' /\
    reports_of n results <> reports_of n results'.
Proof.
  intros H. unfold differs, digest_of in H.
  destruct (parse_file true src) as [[t [|e errs]]|]; [|discriminate H..].
  destruct (run_rules a defs t) as [l|] eqn:RA; [|discriminate H].
  destruct (run_rules b defs t) as [l'|] eqn:RB; [|discriminate H].
  exists t, l, l'. split; [reflexivity|]. split; [exact RA|]. split; [exact RB|].
  intros E. clear RA RB. rewrite E in H. unfold digest in H. rewrite Nat.eqb_refl in H.
  match type of H with context [text_eqb ?x ?x] => rewrite (proj2 (text_eqb_eq x x) eq_refl) in H end. discriminate H.
Qed.
Local Lemma all_differ s n : acts_on s n -> differs RULE_DEFINITIONS sample default_config (other s default_config) n = true.
Proof. intros [->|[-> ->]]; [destruct s|]; vm_compute; reflexivity. Qed.

(** There is nothing too much in the table: each setting acts on each of its rules, already when
    it is the only one that is changed, for some template without syntax errors. *)
Theorem C89_every_setting_acts : forall s n, acts_on s n ->
  exists a b src t results results', (forall s', s' <> s -> same s' a b) /\
    parse_file true src = Done (t, []) /\
    run_rules a RULE_DEFINITIONS t = Done results /\ run_rules b RULE_DEFINITIONS t = Done results' /\
    reports_of n results <> reports_of n results'.
Proof.
  intros s n H. exists default_config, (other s default_config), sample.
  destruct (differs_spec _ _ _ _ _ (all_differ s n H)) as (t & r & r' & D).
  exists t, r, r'. split; [exact (other_only s)|exact D].
Qed.

(** The documentation names one rule for each setting. Of the line ending this is not all: it
    also decides over what the rule about line breaks around blocks suggests. *)
Theorem C89_only_the_named_rule_refuted :
  ~ (forall a b rules t results results', incl rules RULE_DEFINITIONS ->
      run_rules a rules t = Done results -> run_rules b rules t = Done results' ->
      forall n, (forall s, n = checked_by s -> same s a b) -> reports_of n results = reports_of n results').
Proof.
  intros C. destruct (C89_every_setting_acts LineEnding (txt "twig-block-line-breaks") (or_intror (conj eq_refl eq_refl)))
    as (a & b & src & t & r & r' & O & _ & A & B & N).
  apply N. refine (C a b RULE_DEFINITIONS t r r' (incl_refl _) A B _ _).
  intros s E. apply O. intros ->. vm_compute in E. discriminate E.
Qed.

(** The first theorem at work: other quotation marks for strings of twig, for the sample, with all
    rules. The reports of that rule differ, those of the 21 other rules are the same. *)
Example C89_case :
  match parse_file true sample with
  | Done (t, _) =>
    match run_rules default_config RULE_DEFINITIONS t, run_rules (other TwigQuotation default_config) RULE_DEFINITIONS t with
    | Done l, Done l' =>
      map (fun r => List.length (reports_of (rl_name r) l)) RULE_DEFINITIONS = [0; 0; 0; 2; 1; 0; 0; 0; 0; 1; 1; 0; 0; 0; 0; 0; 0; 0; 0; 1; 1; 1] /\
      map (fun r => List.length (reports_of (rl_name r) l')) RULE_DEFINITIONS = [0; 0; 0; 2; 1; 0; 0; 0; 0; 0; 1; 0; 0; 0; 0; 0; 0; 0; 0; 1; 1; 1]
    | _, _ => False
    end
  | Crashed => False
  end.
Proof. vm_compute. split; reflexivity. Qed.
(** The second: without the rule about indentation its settings change nothing. *)
Example C89_case_nothing : forall sort fix_opt inspect write_ok,
  run_analysis true sort default_config fix_opt inspect write_ok (filter (fun r => negb (text_eqb (rl_name r) (txt "indentation"))) RULE_DEFINITIONS) sample
  = run_analysis true sort (other IndentationCount (other IndentationMode default_config)) fix_opt inspect write_ok
      (filter (fun r => negb (text_eqb (rl_name r) (txt "indentation"))) RULE_DEFINITIONS) sample.
Proof.
  intros. apply C89_other_settings_change_nothing.
  - intros x X. apply filter_In in X. tauto.
  - intros r Hr s [E|[-> _]]; [|reflexivity]. apply filter_In in Hr as [_ Hr]. destruct s; try reflexivity; rewrite E in Hr; vm_compute in Hr; discriminate Hr.
Qed.

Print Assumptions C89_settings_act_on_their_rules_only.
Print Assumptions C89_other_settings_change_nothing.
Print Assumptions C89_every_setting_acts.
Print Assumptions C89_only_the_named_rule_refuted.
