(** Property theorems about what is reported for a file and about unknown rule names: C19, C42. *)
From Coq Require Import NArith String Bool Lia Arith List.
Import ListNotations.
From Verif Require Import Text Kind ParserApi Machine TreeSpec Red Rule Rules Check Process Output DefaultConfig
  PropSelect PropProcess PropOutput.
Local Open Scope list_scope.
Local Notation length := List.length (only parsing).

(** * C19: an unknown rule name ends the run with exit code 1, whatever else happens *)
Theorem C19_unknown_rule_name_fails_the_run : forall cf es n,
  In n (active_rules cf) -> ~ known n -> app RULE_DEFINITIONS cf es = 1.
Proof.
  intros cf es n Hin Hn. unfold app.
  assert (D : forall l, In n l -> exists before u after, l = before ++ u :: after /\ Forall known before /\ ~ known u).
  { assert (K : forall x, known x \/ ~ known x).
    { intros x. destruct (in_dec (list_eq_dec N.eq_dec) x (map rl_name RULE_DEFINITIONS)) as [H|H].
      - left. apply in_map_iff in H as (r & E & Hr). exists r. auto.
      - right. intros (r & Hr & E). apply H. apply in_map_iff. eauto. }
    induction l as [|x l IH]; intros Hl; [destruct Hl|].
    destruct (K x) as [Kx|Kx]; [|exists [], x, l; auto].
    destruct Hl as [->|Hl]; [contradiction|]. destruct (IH Hl) as (b & u & a & -> & F & U).
    exists (x :: b), u, a. auto. }
  destruct (D _ Hin) as (b & u & a & E & F & U). rewrite E.
  rewrite (C19_first_unknown_name_is_reported b u a F U). reflexivity.
Qed.
(** With known names only, the exit code is that of the reports. *)
Theorem C19_known_rule_names_do_not_fail_the_run : forall cf es,
  Forall known (active_rules cf) -> app RULE_DEFINITIONS cf es = exit_code (count_events es).
Proof.
  intros cf es H. unfold app. destruct (C19_configured_rules_are_selected _ H) as (rules & -> & _). reflexivity.
Qed.
Definition nope_config : config :=
  let d := default_config in
  mkConfig [txt "line-ending"; txt "nope"]%string (cf_line_ending d) (cf_indentation_mode d) (cf_indentation_count d)
    (indent_children_of_blocks d) (linebreaks_around_blocks d) (twig_quotation d) (html_quotation d)
    (valid_filters d) (valid_tests d) (valid_functions d).
Example C19_unknown_fails_case : app RULE_DEFINITIONS nope_config [] = 1 /\ app RULE_DEFINITIONS default_config [] = 0.
Proof. vm_compute. split; reflexivity. Qed.

(** * C42: the reports describe the text that is in the file afterwards *)

(** The text in a file after the effects, given the text before. *)
Definition file_after (content : text) (effects : list effect) : text :=
  last (writes effects) content.

Section Reports.
  Context (dbg : bool) (sort : list (text * suggestion) -> out (list (text * suggestion))) (cf : config).

  Lemma sent_app a b : sent (a ++ b) = sent a ++ sent b.
  Proof. apply flat_map_app. Qed.
  Lemma sent_diagnostics inspect fc rs :
    sent (produce_diagnostics inspect fc rs ++ [Send OutputStderrMessage])
    = (if inspect then [Report SInfo] else []) ++ repeat (Report SError) (length (fc_errors fc))
      ++ map (fun r => Report (rs_severity r)) rs ++ [OutputStderrMessage].
  Proof.
    unfold produce_diagnostics. rewrite !sent_app, <- !app_assoc. f_equal; [destruct inspect; reflexivity|]. f_equal.
    - induction (fc_errors fc) as [|e l IH]; [reflexivity|]. cbn. f_equal. exact IH.
    - f_equal. induction rs as [|r l IH]; [reflexivity|]. cbn. f_equal. exact IH.
  Qed.

  (** If all goes well, exactly the syntax errors of the final text and the results of the active
      rules on it are reported, each once and with its severity. *)
  Theorem C42_reports_describe_the_final_text :
    forall fix_opt inspect write_ok definitions content effects,
    file_task dbg sort cf fix_opt inspect write_ok definitions (Some content) = (effects, Ok tt) ->
    exists t0 errs0 t errs rs,
      parse_file dbg content = Done (t0, errs0) /\
      parse_file dbg (file_after content effects) = Done (t, errs) /\
      run_rules cf (get_file_active_rules (root_elem t0) definitions) t = Done rs /\
      sent effects = FileProcessed :: (if inspect then [Report SInfo] else [])
        ++ repeat (Report SError) (length errs) ++ map (fun r => Report (rs_severity r)) rs ++ [OutputStderrMessage].
  Proof.
    intros fix_opt inspect write_ok definitions content effects E.
    unfold file_task, process_file, run_analysis in E.
    destruct (parse_file dbg content) as [[t errs]|] eqn:P; [|discriminate].
    destruct (run_rules cf (get_file_active_rules (root_elem t) definitions) t) as [rs|] eqn:R; [|discriminate].
    assert (Plain : forall l, effects = [Send FileProcessed; ReadFile] ++ l -> writes l = [] -> file_after content effects = content).
    { intros l -> W. unfold file_after. rewrite writes_app, W. reflexivity. }
    destruct fix_opt.
    - destruct (iteratively_apply_suggestions dbg sort cf _ rs) as [[[[fc' rs'] dirty] i]|e|] eqn:I; try discriminate.
      apply C24_fix_loop_is_bounded_and_honest in I; [|split; assumption].
      destruct I as (_ & _ & (P' & R') & _ & F & D & _). cbn [fc_rules] in F. destruct dirty.
      + destruct write_ok; [|discriminate]. injection E as <-.
        exists t, errs, (fc_tree fc'), (fc_errors fc'), rs'. split; [reflexivity|]. split.
        { unfold file_after. cbn [writes flat_map app].
          fold (writes (produce_diagnostics inspect fc' rs' ++ [Send OutputStderrMessage])).
          rewrite diagnostics_writes. cbn [last]. exact P'. }
        split; [rewrite <- F; exact R'|]. cbn [sent flat_map app].
        fold (sent (produce_diagnostics inspect fc' rs' ++ [Send OutputStderrMessage])). now rewrite sent_diagnostics.
      + destruct (D eq_refl) as (-> & -> & _). injection E as <-.
        exists t, errs, t, errs, rs. split; [reflexivity|].
        split; [erewrite Plain; [exact P|reflexivity|apply diagnostics_writes]|]. split; [exact R|].
        cbn [sent flat_map app]. fold (sent (produce_diagnostics inspect (mkFile content t errs (get_file_active_rules (root_elem t) definitions)) rs ++ [Send OutputStderrMessage])).
        now rewrite sent_diagnostics.
    - injection E as <-. exists t, errs, t, errs, rs. split; [reflexivity|].
      split; [erewrite Plain; [exact P|reflexivity|apply diagnostics_writes]|]. split; [exact R|].
      cbn [sent flat_map app]. fold (sent (produce_diagnostics inspect (mkFile content t errs (get_file_active_rules (root_elem t) definitions)) rs ++ [Send OutputStderrMessage])).
      now rewrite sent_diagnostics.
  Qed.

  (** If something goes wrong, an error is reported. *)
  Theorem C42_failures_are_reported :
    forall fix_opt inspect write_ok definitions read effects e,
    file_task dbg sort cf fix_opt inspect write_ok definitions read = (effects, Err e) ->
    In (Report SError) (sent effects).
  Proof.
    intros fix_opt inspect write_ok definitions read effects e E. unfold file_task in E.
    destruct (process_file dbg sort cf fix_opt inspect write_ok definitions read) as [eff [x|x|]]; try discriminate.
    injection E as <- <-. rewrite sent_app. apply in_app_iff. right. left. reflexivity.
  Qed.
End Reports.

(** A file that is fixed and has one syntax error and one finding that stays. *)
Definition C42_template : text := txt "{{ a && b }}{{ }}"%string.
Example C42_case :
  let (effects, o) := default_task C42_template in
  o = Ok tt /\ file_after C42_template effects = txt "{{ a and b }}{{ }}"%string /\
  sent effects = [FileProcessed; Report SError; OutputStderrMessage].
Proof. vm_compute. repeat split. Qed.
(** Without --fix the finding is reported, too. *)
Example C42_case_no_fix :
  sent (fst (file_task true insertion_sort default_config false true true RULE_DEFINITIONS (Some C42_template)))
  = [FileProcessed; Report SInfo; Report SError; Report SError; OutputStderrMessage].
Proof. vm_compute. reflexivity. Qed.
Example C42_case_failure :
  file_task true insertion_sort default_config false true true RULE_DEFINITIONS None
  = ([Send FileProcessed; ReadFile; Send (Report SError)], Err FileRead).
Proof. reflexivity. Qed.

Print Assumptions C19_unknown_rule_name_fails_the_run.
Print Assumptions C42_reports_describe_the_final_text.
Print Assumptions C42_failures_are_reported.
