(** Property theorems about what --fix says it has done: C94. *)
From Coq Require Import NArith String Bool Arith Lia List.
Import ListNotations.
From Verif Require Import Text Machine TreeSpec Red Rule Rules Check Process Output Session GrammarTags Said DefaultConfig PropProcess PropReport PropDump.
Local Open Scope string_scope.
Local Open Scope list_scope.
Local Notation length := List.length (only parsing).

Section C94.
  Context (dbg : bool) (sort : list (text * suggestion) -> out (list (text * suggestion))) (cf : config).

  (** The fix loop does not come back to the text that it started with. *)
  Lemma changed fc rs fc' rs' i : consistent dbg cf fc rs ->
    iteratively_apply_suggestions dbg sort cf fc rs = Ok (fc', rs', true, i) -> fc_source fc' <> fc_source fc.
  Proof.
    intros C E X. destruct (C24_fix_loop_is_bounded_and_honest dbg sort cf fc rs fc' rs' true i C E) as (_ & D & (P' & R') & Z & F & _ & I).
    specialize (I eq_refl). destruct C as [P R]. rewrite X in P'. rewrite P in P'. injection P' as T _. rewrite F, <- T, R in R'. injection R' as ->.
    inversion D; subst; [inversion I|]. destruct H as (H & _). contradiction.
  Qed.

  (** A file is written at most once, and only with a text that differs from the one that was read. *)
  Theorem C94_files_are_written_only_if_they_change : forall fix_opt inspect write_ok definitions content,
    let effects := fst (file_task dbg sort cf fix_opt inspect write_ok definitions (Some content)) in
    length (writes effects) <= 1 /\ forall c, In (WriteFile c) effects -> c <> content.
  Proof.
    intros fix_opt inspect write_ok definitions content effects.
    destruct (file_task dbg sort cf fix_opt inspect write_ok definitions (Some content)) as [eff oc] eqn:E. cbn [fst] in effects. subst effects.
    assert (W : forall c, In (WriteFile c) eff -> In c (writes eff)).
    { intros c H. apply in_flat_map. exists (WriteFile c). split; [exact H|now left]. }
    destruct (C25_files_change_only_through_a_successful_fix dbg sort cf _ _ _ _ _ _ _ E) as [N|(content0 & t & errs & rs & fc' & rs' & i & _ & EC & P & R & It & Wr)].
    - rewrite N. split; [cbn; lia|]. intros c H. apply W in H. rewrite N in H. destruct H.
    - injection EC as <-. rewrite Wr. split; [cbn; lia|]. intros c H. apply W in H. rewrite Wr in H. destruct H as [<-|[]].
      exact (changed (mkFile content t errs (get_file_active_rules (root_elem t) definitions)) rs fc' rs' i (conj P R) It).
  Qed.

  (** A task that ends well says that it has fixed the file exactly if the text of the file has
      changed, once, and with the number of rounds; a task that fails says nothing. *)
  Theorem C94_fixed_is_said_of_the_changed_files : forall p fix_opt inspect write_ok definitions content effects,
    file_task dbg sort cf fix_opt inspect write_ok definitions (Some content) = (effects, Ok tt) ->
    (task_stdout dbg sort cf p fix_opt write_ok definitions (Some content) = [] /\ file_after content effects = content) \/
    (exists i t errs rs fc' rs',
       task_stdout dbg sort cf p fix_opt write_ok definitions (Some content) = [fixed_line p i] /\
       file_after content effects <> content /\ 1 <= i <= 9 /\
       parse_file dbg content = Done (t, errs) /\
       rounds dbg sort cf i (mkFile content t errs (get_file_active_rules (root_elem t) definitions)) rs fc' rs' /\
       fc_source fc' = file_after content effects).
  Proof.
    intros p fix_opt inspect write_ok definitions content effects E.
    assert (Plain : forall l, effects = [Send FileProcessed; ReadFile] ++ l -> writes l = [] -> file_after content effects = content).
    { intros l -> W. unfold file_after. rewrite writes_app, W. reflexivity. }
    unfold file_task, process_file, run_analysis in E. unfold task_stdout.
    destruct (parse_file dbg content) as [[t errs]|] eqn:P; [|discriminate].
    destruct (run_rules cf (get_file_active_rules (root_elem t) definitions) t) as [rs|] eqn:R; [|discriminate].
    destruct fix_opt.
    - destruct (iteratively_apply_suggestions dbg sort cf _ rs) as [[[[fc' rs'] dirty] i]|e|] eqn:It; try discriminate. destruct dirty.
      + destruct write_ok; [|discriminate]. injection E as E. right.
        pose proof (changed (mkFile content t errs (get_file_active_rules (root_elem t) definitions)) rs fc' rs' i (conj P R) It) as Ch. cbn [fc_source] in Ch.
        destruct (C24_fix_loop_is_bounded_and_honest dbg sort cf (mkFile content t errs (get_file_active_rules (root_elem t) definitions)) rs fc' rs' true i (conj P R) It) as (I9 & D & _ & _ & _ & _ & I1).
        specialize (I1 eq_refl).
        assert (FA : file_after content effects = fc_source fc').
        { rewrite <- E. unfold file_after. cbn [writes flat_map List.app].
          fold (writes (produce_diagnostics inspect fc' rs' ++ [Send OutputStderrMessage])). rewrite diagnostics_writes. reflexivity. }
        rewrite FA. exists i, t, errs, rs, fc', rs'. split; [reflexivity|]. split; [exact Ch|]. split; [lia|]. split; [reflexivity|]. split; [exact D|reflexivity].
      + injection E as <-. left. split; [reflexivity|]. eapply Plain; [reflexivity|apply diagnostics_writes].
    - injection E as <-. left. split; [reflexivity|]. eapply Plain; [reflexivity|apply diagnostics_writes].
  Qed.

  Theorem C94_failures_are_not_called_fixed : forall p fix_opt inspect write_ok definitions read,
    snd (file_task dbg sort cf fix_opt inspect write_ok definitions read) <> Ok tt ->
    task_stdout dbg sort cf p fix_opt write_ok definitions read = [].
  Proof.
    intros p fix_opt inspect write_ok definitions [content|] E; [|reflexivity].
    unfold file_task, process_file, run_analysis in E. unfold task_stdout.
    destruct (parse_file dbg content) as [[t errs]|] eqn:P; [|reflexivity].
    destruct (run_rules cf (get_file_active_rules (root_elem t) definitions) t) as [rs|] eqn:R; [|reflexivity].
    destruct fix_opt; [|reflexivity].
    destruct (iteratively_apply_suggestions dbg sort cf _ rs) as [[[[fc' rs'] dirty] i]|e|] eqn:It; try reflexivity.
    destruct dirty; [|reflexivity]. destruct write_ok; [|reflexivity]. exfalso. apply E. reflexivity.
  Qed.

  Lemma consistent_unique fc1 rs1 fc2 rs2 : consistent dbg cf fc1 rs1 -> consistent dbg cf fc2 rs2 ->
    fc_source fc1 = fc_source fc2 -> fc_rules fc1 = fc_rules fc2 -> fc1 = fc2 /\ rs1 = rs2.
  Proof.
    intros [P1 R1] [P2 R2] S F. destruct fc1 as [s1 t1 e1 r1], fc2 as [s2 t2 e2 r2]. cbn [fc_source fc_rules fc_tree fc_errors] in *. subst s2 r2.
    rewrite P1 in P2. injection P2 as -> ->. rewrite R1 in R2. injection R2 as ->. split; reflexivity.
  Qed.
  Lemma round_unique fc rs fc1 rs1 fc2 rs2 : round dbg sort cf fc rs fc1 rs1 -> round dbg sort cf fc rs fc2 rs2 -> fc1 = fc2 /\ rs1 = rs2.
  Proof.
    intros (_ & F1 & C1 & sorted1 & chosen1 & S1 & H1 & A1) (_ & F2 & C2 & sorted2 & chosen2 & S2 & H2 & A2).
    rewrite S1 in S2. injection S2 as <-. rewrite H1 in H2. injection H2 as <-. rewrite A1 in A2. injection A2 as A.
    apply consistent_unique; try assumption. now rewrite F1, F2.
  Qed.
  Lemma rounds_end : forall n fc rs f1 r1, rounds dbg sort cf n fc rs f1 r1 -> rule_suggestions r1 = [] ->
    forall m f2 r2, rounds dbg sort cf m fc rs f2 r2 -> rule_suggestions r2 = [] -> n = m.
  Proof.
    induction 1 as [fc rs|n fc rs fa ra f1 r1 R RS IH]; intros Z m f2 r2 D Z2.
    - inversion D as [|? ? ? ? ? ? ? R']; subst; [reflexivity|]. destruct R' as (N & _). contradiction.
    - inversion D as [|m' ? ? fb rb ? ? R' RS']; subst.
      + destruct R as (N & _). contradiction.
      + destruct (round_unique _ _ _ _ _ _ R R') as [<- <-]. f_equal. eapply IH; eassumption.
  Qed.

  Lemma rounds_app : forall n fc rs f1 r1, rounds dbg sort cf n fc rs f1 r1 ->
    forall m f2 r2, rounds dbg sort cf m f1 r1 f2 r2 -> rounds dbg sort cf (n + m) fc rs f2 r2.
  Proof.
    induction 1 as [fc rs|n fc rs fa ra f1 r1 R RS IH]; intros m f2 r2 D; [exact D|].
    cbn [plus]. econstructor; [exact R|]. now apply IH.
  Qed.

  (** On its way to success --fix never meets a text twice: of all texts, from the first to the one that
      is written, no two are the same. *)
  Theorem C94_texts_never_repeat : forall fc rs a b c fc1 rs1 fc2 rs2 fc' rs',
    consistent dbg cf fc rs ->
    rounds dbg sort cf a fc rs fc1 rs1 -> rounds dbg sort cf b fc1 rs1 fc2 rs2 -> rounds dbg sort cf c fc2 rs2 fc' rs' ->
    iteratively_apply_suggestions dbg sort cf fc rs = Ok (fc', rs', true, a + b + c) ->
    1 <= b -> fc_source fc1 <> fc_source fc2.
  Proof.
    intros fc rs a b c fc1 rs1 fc2 rs2 fc' rs' C A B D It L E.
    destruct (C24_fix_loop_is_bounded_and_honest dbg sort cf fc rs fc' rs' true _ C It) as (_ & _ & _ & Z & _).
    destruct (rounds_consistent dbg sort cf _ _ _ _ _ A C) as [C1 F1]. destruct (rounds_consistent dbg sort cf _ _ _ _ _ B C1) as [C2 F2].
    destruct (consistent_unique _ _ _ _ C1 C2 E (eq_sym F2)) as [<- <-].
    pose proof (rounds_app _ _ _ _ _ B _ _ _ D) as BC.
    pose proof (rounds_end _ _ _ _ _ BC Z _ _ _ D Z). lia.
  Qed.
End C94.

(** The line tells the path and the number of rounds. *)
Theorem C94_lines_differ : forall p i i', fixed_line p i = fixed_line p i' -> i = i'.
Proof.
  intros p i i' E. unfold fixed_line in E. apply app_inv_head, app_inv_head, app_inv_head, app_inv_tail in E. now apply nat_text_inj.
Qed.

(** One round, three rounds, no round, and a file that cannot be written. *)
Example C94_case :
  let said content write_ok := (task_stdout true insertion_sort default_config (txt "a.twig") true write_ok RULE_DEFINITIONS (Some content),
    match file_task true insertion_sort default_config true false write_ok RULE_DEFINITIONS (Some content) with
    | (effects, Ok _) => Some (file_after content effects) | _ => None end) in
  said C42_template true = ([txt "fixed a.twig in 1 iterations"], Some (txt "{{ a and b }}{{ }}")) /\
  said (repeat 13%N 3 ++ [10%N]) true = ([txt "fixed a.twig in 3 iterations"], Some [10%N]) /\
  said (txt "{{ a }}") true = ([], Some (txt "{{ a }}")) /\
  said C42_template false = ([], None).
Proof. vm_compute. repeat split. Qed.

Print Assumptions C94_files_are_written_only_if_they_change.
Print Assumptions C94_fixed_is_said_of_the_changed_files.
Print Assumptions C94_failures_are_not_called_fixed.
Print Assumptions C94_lines_differ.
Print Assumptions C94_texts_never_repeat.
