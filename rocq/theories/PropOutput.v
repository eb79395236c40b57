(** Property theorems about totals and the exit code: C28, C29. *)
From Coq Require Import NArith String Bool Lia Arith List Permutation.
Import ListNotations.
From Verif Require Import Text Kind ParserApi Machine Red Rule Rules Check Process Output DefaultConfig.
Local Open Scope list_scope.
Local Notation length := List.length (only parsing).

(** * What is meant *)

(** [interleaves ess es]: the sequence [es] arises when senders with the sequences [ess] take
    turns in any way. *)
Inductive interleaves : list (list event) -> list event -> Prop :=
| il_done ess : Forall (fun l => l = []) ess -> interleaves ess []
| il_step l e x r es : interleaves (l ++ x :: r) es -> interleaves (l ++ (e :: x) :: r) (e :: es).

Definition event_eq_dec (a b : event) : {a = b} + {a <> b}.
Proof. decide equality. decide equality. Defined.

(** How often [e] was sent, over all senders. *)
Definition times (e : event) (ess : list (list event)) : nat :=
  list_sum (map (fun es => count_occ event_eq_dec es e) ess).

(** A reported problem. *)
Definition problem (e : event) : Prop :=
  e = Report SError \/ e = Report SWarning \/ e = Report SHelp.

(** * Counting *)
Lemma count_from c es :
  fold_left count_event es c =
  mkTotals (n_files c + count_occ event_eq_dec es FileProcessed)
           (n_errors c + count_occ event_eq_dec es (Report SError))
           (n_warnings c + count_occ event_eq_dec es (Report SWarning))
           (n_helps c + count_occ event_eq_dec es (Report SHelp))
           (n_infos c + count_occ event_eq_dec es (Report SInfo)).
Proof.
  revert c. induction es as [|e es IH]; intros c; cbn [fold_left].
  - destruct c as [c1 c2 c3 c4 c5]. cbn. f_equal; lia.
  - rewrite IH. destruct c as [c1 c2 c3 c4 c5]. destruct e as [|[]|]; cbn [count_event n_files n_errors n_warnings n_helps n_infos];
      cbn [count_occ]; repeat (destruct (event_eq_dec _ _); try congruence); f_equal; lia.
Qed.

Lemma interleaves_times e ess es : interleaves ess es -> count_occ event_eq_dec es e = times e ess.
Proof.
  intros H. induction H as [ess H|l a x r es H IH]; unfold times in *.
  - induction H as [|x ess Hx H IH]; [reflexivity|]. subst. cbn. exact IH.
  - rewrite map_app, list_sum_app in *. cbn [map list_sum fold_right] in *. cbn [count_occ].
    unfold list_sum in *. cbn [fold_right count_occ] in *. destruct (event_eq_dec a e); lia.
Qed.

(** * C28 *)
Theorem C28_totals_are_sums_for_any_interleaving : forall ess es,
  interleaves ess es ->
  let errors := times (Report SError) ess in
  let warnings := times (Report SWarning) ess in
  let helps := times (Report SHelp) ess in
  handle_processing_output es =
    (mkTotals (times FileProcessed ess) errors warnings helps (times (Report SInfo) ess),
     if Nat.ltb 0 (times FileProcessed ess) && Nat.ltb 0 (errors + warnings + helps) then 1 else 0).
Proof.
  intros ess es H errors warnings helps. unfold handle_processing_output, count_events.
  rewrite count_from. cbn [n_files n_errors n_warnings n_helps n_infos plus].
  rewrite !(fun e => interleaves_times e ess es H). fold errors warnings helps. f_equal.
  unfold exit_code. cbn [n_files n_errors n_warnings n_helps n_infos].
  replace (Nat.ltb 0 errors || Nat.ltb 0 warnings || Nat.ltb 0 helps)
    with (Nat.ltb 0 (errors + warnings + helps)); [reflexivity|].
  destruct errors; [|reflexivity]. destruct warnings; [|reflexivity]. destruct helps; reflexivity.
Qed.

(** In particular scheduling has no influence. *)
Theorem C28_scheduling_does_not_matter : forall ess es es',
  interleaves ess es -> interleaves ess es' ->
  handle_processing_output es = handle_processing_output es'.
Proof.
  intros ess es es' H H'.
  rewrite (C28_totals_are_sums_for_any_interleaving _ _ H).
  rewrite (C28_totals_are_sums_for_any_interleaving _ _ H'). reflexivity.
Qed.

(** Two files, two of their interleavings. *)
Definition two_files : list (list event) :=
  [[FileProcessed; Report SWarning; OutputStderrMessage]; [FileProcessed; Report SInfo]].
Example C28_case :
  interleaves two_files
    [FileProcessed; FileProcessed; Report SWarning; OutputStderrMessage; Report SInfo] /\
  interleaves two_files
    [FileProcessed; Report SInfo; FileProcessed; Report SWarning; OutputStderrMessage] /\
  handle_processing_output
    [FileProcessed; FileProcessed; Report SWarning; OutputStderrMessage; Report SInfo]
  = (mkTotals 2 0 1 0 1, 1).
Proof.
  unfold two_files. split; [|split; [|reflexivity]].
  - apply (il_step [] _ _ [_]). apply (il_step [_] _ _ []). apply (il_step [] _ _ [_]).
    apply (il_step [] _ _ [_]). apply (il_step [_] _ _ []). apply il_done. repeat constructor.
  - apply (il_step [_] _ _ []). apply (il_step [_] _ _ []). apply (il_step [] _ _ [_]).
    apply (il_step [] _ _ [_]). apply (il_step [] _ _ [_]). apply il_done. repeat constructor.
Qed.

(** * C29 *)

(** The full claim: whatever the directory walk yields, the exit code is 1 if a problem was
    reported and 0 otherwise. *)
Definition C29_statement : Prop :=
  forall entries es, interleaves (map entry_events entries) es ->
    exit_code (count_events es) = 1 <-> exists e, In e es /\ problem e.

(** It fails: an error while walking over the paths is counted, but without a processed file
    (say, the given path does not exist) the exit code stays 0. *)
Theorem C29_problems_make_the_exit_code_nonzero_refuted : ~ C29_statement.
Proof.
  intros H. specialize (H [WalkError] [Report SError]).
  assert (I : interleaves (map entry_events [WalkError]) [Report SError]).
  { apply (il_step [] _ [] []). apply il_done. repeat constructor. }
  apply H in I. cut (0 = 1); [discriminate|]. apply I.
  exists (Report SError). split; [left; reflexivity|left; reflexivity].
Qed.

Lemma count_occ_pos e es : 0 < count_occ event_eq_dec es e <-> In e es.
Proof. symmetry. apply count_occ_In. Qed.
Lemma interleaves_In ess es e : interleaves ess es -> (In e es <-> exists l, In l ess /\ In e l).
Proof.
  intros H. rewrite <- count_occ_pos, (interleaves_times e _ _ H). unfold times.
  induction ess as [|x ess IH] in |- *; cbn [map].
  - cbn. split; [lia|intros (l & [] & _)].
  - unfold list_sum in *. cbn [fold_right]. split.
    + intros P. destruct (count_occ event_eq_dec x e) eqn:E.
      * apply IH in P. destruct P as (l & Hl & He). exists l. split; [right; exact Hl|exact He].
      * exists x. split; [left; reflexivity|]. apply count_occ_pos. lia.
    + intros (l & [<-|Hl] & He).
      * apply count_occ_pos in He. lia.
      * assert (0 < fold_right Init.Nat.add 0 (map (fun es => count_occ event_eq_dec es e) ess)); [|lia].
        apply IH. exists l. split; assumption.
Qed.

(** What holds: as soon as the walk yields one file, the exit code is 1 exactly if a problem
    was reported.  Missing: runs in which the walk yields no file but an error. *)
Theorem C29_problems_make_the_exit_code_nonzero_partial : forall entries es,
  interleaves (map entry_events entries) es ->
  (exists dbg sort cf fix_opt inspect write_ok definitions content,
     In (FileEntry (fst (file_task dbg sort cf fix_opt inspect write_ok definitions content))) entries) ->
  exit_code (count_events es) = 1 <-> exists e, In e es /\ problem e.
Proof.
  intros entries es H (dbg & sort & cf & fo & ins & wo & defs & content & Hin).
  assert (F : In FileProcessed es).
  { apply (interleaves_In _ _ _ H). eexists. split; [apply in_map; exact Hin|].
    cbn [entry_events]. unfold file_task, process_file.
    destruct content as [content|]; [|left; reflexivity].
    destruct (run_analysis dbg sort cf fo ins wo defs content) as [eff o].
    destruct o; left; reflexivity. }
  unfold exit_code, count_events. rewrite count_from. cbn [n_files n_errors n_warnings n_helps n_infos plus].
  apply count_occ_pos in F.
  destruct (count_occ event_eq_dec es FileProcessed) as [|nf]; [lia|]. cbn [Nat.ltb Nat.leb andb].
  unfold problem. split.
  - intros E. destruct (count_occ event_eq_dec es (Report SError)) as [|n1] eqn:E1.
    + destruct (count_occ event_eq_dec es (Report SWarning)) as [|n2] eqn:E2.
      * destruct (count_occ event_eq_dec es (Report SHelp)) as [|n3] eqn:E3; [discriminate|].
        exists (Report SHelp). split; [apply count_occ_pos; lia|tauto].
      * exists (Report SWarning). split; [apply count_occ_pos; lia|tauto].
    + exists (Report SError). split; [apply count_occ_pos; lia|tauto].
  - intros (e & He & P). apply count_occ_pos in He.
    destruct P as [->|[->| ->]].
    + destruct (count_occ event_eq_dec es (Report SError)); [lia|reflexivity].
    + destruct (count_occ event_eq_dec es (Report SWarning)); [lia|]. cbn.
      rewrite orb_true_r. reflexivity.
    + destruct (count_occ event_eq_dec es (Report SHelp)); [lia|]. cbn.
      rewrite orb_true_r. reflexivity.
Qed.

(** One file with a finding and one walk error. *)
Example C29_case :
  let task := file_task true insertion_sort default_config false false true RULE_DEFINITIONS
                (Some (txt "{{ a && b }}"%string)) in
  fst task = [Send FileProcessed; ReadFile; Send (Report SError); Send OutputStderrMessage] /\
  exit_code (count_events (flat_map entry_events [WalkError; FileEntry (fst task)])) = 1.
Proof. vm_compute. split; reflexivity. Qed.

Print Assumptions C28_totals_are_sums_for_any_interleaving.
Print Assumptions C28_scheduling_does_not_matter.
Print Assumptions C29_problems_make_the_exit_code_nonzero_refuted.
Print Assumptions C29_problems_make_the_exit_code_nonzero_partial.
