(** Property theorems about what is printed on stderr: C92. *)
From Coq Require Import NArith String Bool Arith Lia List Permutation.
Import ListNotations.
From Verif Require Import Text Kind ParserApi Machine TreeSpec Red Rule Rules Check Process Output Render Diagnostics Session Main Shown
  DefaultConfig PropProcess PropOutput PropReport PropLabels.
From Verif Require PropFinish.
Local Open Scope string_scope.
Local Open Scope list_scope.
Local Notation length := List.length (only parsing).

(** * What a user counts *)

(** The messages of a severity in one piece of the output; the error of a task or of the walk is an
    error. *)
Definition messages_in (s : severity) (c : chunk) : nat :=
  match c with
  | Buffer _ ds => length (filter (fun d => match dg_severity d, s with
      | SError, SError | SWarning, SWarning | SHelp, SHelp | SInfo, SInfo => true | _, _ => false end) ds)
  | TaskError _ _ | WalkLine => match s with SError => 1 | _ => 0 end
  end.
(** In all the output. *)
Definition messages_shown (s : severity) (stderr : list chunk) : nat := list_sum (map (messages_in s) stderr).

(** The piece that belongs to a file: if its task has ended well, all messages about the text that is
    in the file afterwards (with the syntax tree in front if asked for), otherwise the error. *)
Definition piece_of (dbg : bool) (sort : list (text * suggestion) -> out (list (text * suggestion))) (cf : config)
    (o : options) (rules : list rule) (write_ok : path -> bool) (f : files) (p : path) (c : chunk) : Prop :=
  match file_task dbg sort cf (op_fix o) (op_inspect o) (write_ok p) rules (f p) with
  | (effects, Ok _) => exists content t errs file_rules rs ds,
      f p = Some content /\ parse_file dbg (file_after content effects) = Done (t, errs) /\
      incl file_rules rules /\ run_rules cf file_rules t = Done rs /\
      diagnostics (mkFile (file_after content effects) t errs file_rules) rs = Done ds /\
      c = Buffer p ((if op_inspect o then [tree_diagnostic] else []) ++ ds)
  | (_, Err e) => c = TaskError p e
  | (_, Crash) => False
  end.

(** * Merging *)

Lemma merged_permutation {A : Type} (xss : list (list A)) ys : merged xss ys -> Permutation ys (concat xss).
Proof.
  induction 1 as [xss H|l x xs r ys H IH].
  - replace (concat xss) with (@nil A); [constructor|]. induction H as [|y xss -> H IH]; [reflexivity|exact IH].
  - rewrite concat_app in *. cbn [concat app] in *. rewrite IH. apply Permutation_middle.
Qed.

(** * One task *)

Lemma emit_errors_spec : forall es acc, emit_errors es acc =
  match error_diagnostics es with
  | Done ds => Done (fst acc ++ map (fun _ => MReport SError) es, snd acc ++ ds)
  | Crashed => Crashed
  end.
Proof.
  induction es as [|e es IH]; intros [a b]; cbn [emit_errors error_diagnostics map fst snd].
  - now rewrite !app_nil_r.
  - destruct (error_diagnostic e) as [d|]; [|reflexivity]. rewrite IH. destruct (error_diagnostics es) as [ds|]; [|reflexivity].
    unfold emit; cbn [fst snd]. now rewrite <- !app_assoc.
Qed.
Lemma emit_results_spec : forall rs acc, emit_results rs acc =
  (fst acc ++ map (fun r => MReport (rs_severity r)) rs, snd acc ++ map result_diagnostic rs).
Proof.
  unfold emit_results. induction rs as [|r rs IH]; intros [a b]; cbn [fold_left map fst snd].
  - now rewrite !app_nil_r.
  - rewrite IH. unfold emit; cbn [fst snd]. now rewrite <- !app_assoc.
Qed.
Lemma produce_spec inspect fc rs : produce_messages inspect fc rs =
  match diagnostics fc rs with
  | Done ds => Done ((if inspect then [MReport SInfo] else []) ++ map (fun _ => MReport SError) (fc_errors fc) ++ map (fun r => MReport (rs_severity r)) rs,
                     (if inspect then [tree_diagnostic] else []) ++ ds)
  | Crashed => Crashed
  end.
Proof.
  unfold produce_messages, diagnostics. rewrite emit_errors_spec. destruct (error_diagnostics (fc_errors fc)) as [ds|]; [|reflexivity].
  rewrite emit_results_spec. destruct inspect; unfold emit; cbn [fst snd app]; now rewrite <- ?app_assoc.
Qed.

Lemma error_severities : forall es ds, error_diagnostics es = Done ds -> map dg_severity ds = map (fun _ => SError) es.
Proof.
  induction es as [|e es IH]; intros ds; cbn [error_diagnostics map].
  - intros [= <-]. reflexivity.
  - destruct (error_diagnostic e) as [d|] eqn:E; [|discriminate]. destruct (error_diagnostics es) as [ds'|] eqn:E'; [|discriminate].
    intros [= <-]. cbn [map]. rewrite (IH _ eq_refl). f_equal. unfold error_diagnostic in E. destruct (expected_message e); [|discriminate].
    injection E as <-. reflexivity.
Qed.

Section Task.
  Context (dbg : bool) (sort : list (text * suggestion) -> out (list (text * suggestion))) (cf : config).

  (** The messages of a file and the reports are emitted together. *)
  Lemma finish_facts inspect fc rs :
    parse_file dbg (fc_source fc) = Done (fc_tree fc, fc_errors fc) -> incl (fc_rules fc) RULE_DEFINITIONS ->
    run_rules cf (fc_rules fc) (fc_tree fc) = Done rs ->
    exists es ds, produce_messages inspect fc rs = Done (es, (if inspect then [tree_diagnostic] else []) ++ ds) /\
      diagnostics fc rs = Done ds /\
      map forget es = sent (produce_diagnostics inspect fc rs) /\ flat_map printed es = [] /\
      map forget es = map (fun d => Report (dg_severity d)) ((if inspect then [tree_diagnostic] else []) ++ ds).
  Proof.
    intros P I R. destruct fc as [src t errs rules]. cbn [fc_source fc_tree fc_errors fc_rules] in *.
    destruct (C82_messages_show_a_place dbg src t errs cf rules rs P I R) as (ds & D & _ & M).
    rewrite produce_spec, D. eexists. exists ds. split; [reflexivity|]. split; [reflexivity|]. cbn [fc_errors].
    split; [|split].
    - unfold produce_diagnostics. cbn [fc_errors]. rewrite !sent_app, !map_app, !map_map. f_equal; [destruct inspect; reflexivity|]. f_equal.
      + unfold sent. clear. induction errs as [|e l IH]; [reflexivity|]. cbn. f_equal. exact IH.
      + unfold sent. clear. induction rs as [|e l IH]; [reflexivity|]. cbn. f_equal. exact IH.
    - rewrite !flat_map_app. replace (flat_map printed (if inspect then _ else _)) with (@nil chunk) by (destruct inspect; reflexivity).
      replace (flat_map printed (map (fun _ => MReport SError) errs)) with (@nil chunk) by (clear; induction errs; [reflexivity|assumption]).
      cbn [app]. clear. induction rs; [reflexivity|assumption].
    - rewrite !map_app. f_equal; [destruct inspect; reflexivity|].
      replace (map (fun d => Report (dg_severity d)) ds) with (map Report (map dg_severity ds)) by apply map_map.
      rewrite M, map_app, !map_map. f_equal. clear. induction errs; [reflexivity|]. cbn. f_equal. assumption.
  Qed.

  Lemma counted s ds : count_occ event_eq_dec (map (fun d => Report (dg_severity d)) ds) (Report s) =
    length (filter (fun d => match dg_severity d, s with
      | SError, SError | SWarning, SWarning | SHelp, SHelp | SInfo, SInfo => true | _, _ => false end) ds).
  Proof.
    induction ds as [|d ds IH]; [reflexivity|]. cbn [map count_occ filter]. rewrite IH.
    destruct (event_eq_dec (Report (dg_severity d)) (Report s)) as [E|E].
    - injection E as ->. destruct s; reflexivity.
    - destruct (dg_severity d), s; try reflexivity; exfalso; apply E; reflexivity.
  Qed.

  Lemma counted0 ds : count_occ event_eq_dec (map (fun d => Report (dg_severity d)) ds) FileProcessed = 0.
  Proof. induction ds as [|d ds IH]; [reflexivity|]. cbn [map count_occ]. destruct (event_eq_dec _ _) as [E|_]; [discriminate E|exact IH]. Qed.

  Context (o : options) (definitions : list rule) (write_ok : path -> bool) (f : files).
  Context (I : incl definitions RULE_DEFINITIONS).

  Lemma file_incl root : incl (get_file_active_rules root definitions) definitions.
  Proof. intros x Hx. unfold get_file_active_rules in Hx. destruct (disabled_rules _ _); [|destruct Hx]. apply filter_In in Hx. exact (proj1 Hx). Qed.

  Definition task_ok (p : path) : Prop :=
    let (effects, oc) := file_task dbg sort cf (op_fix o) (op_inspect o) (write_ok p) definitions (f p) in
    exists es lines, task_messages dbg sort cf p (op_fix o) (op_inspect o) (write_ok p) definitions (f p) = (es, lines, oc) /\
      map forget es = sent effects /\
      (oc <> Crash -> exists c, flat_map printed es ++ lines = [c] /\
        piece_of dbg sort cf o definitions write_ok f p c /\
        (forall s, count_occ event_eq_dec (map forget es) (Report s) = messages_in s c) /\
        count_occ event_eq_dec (map forget es) FileProcessed = 1).

  Lemma task_facts p : task_ok p.
  Proof.
    unfold task_ok, piece_of, file_task, task_messages, process_file, process_messages.
    destruct (f p) as [content|] eqn:Fp.
    2:{ eexists. eexists. split; [reflexivity|]. split; [reflexivity|]. intros _. eexists. split; [reflexivity|]. split; [reflexivity|]. split; [intros s; destruct s; reflexivity|reflexivity]. }
    unfold run_analysis, analysis_messages. destruct (parse_file dbg content) as [[t errs]|] eqn:P.
    2:{ eexists. eexists. split; [reflexivity|]. split; [reflexivity|]. intros X. now destruct X. }
    destruct (run_rules cf (get_file_active_rules (root_elem t) definitions) t) as [rs|] eqn:R.
    2:{ eexists. eexists. split; [reflexivity|]. split; [reflexivity|]. intros X. now destruct X. }
    assert (Fin : forall fc rs' pre, parse_file dbg (fc_source fc) = Done (fc_tree fc, fc_errors fc) -> incl (fc_rules fc) definitions ->
      run_rules cf (fc_rules fc) (fc_tree fc) = Done rs' -> sent pre = [] -> last (writes pre) content = fc_source fc ->
      exists es lines,
        (let (es, o1) := output_messages p (op_inspect o) fc rs' in
         match (MFileProcessed :: es, o1) with (es, Err e) => (es ++ [MReport SError], [TaskError p e], Err e) | (es, o) => (es, [], o) end) = (es, lines, Ok tt) /\
        map forget es = sent ([Send FileProcessed; ReadFile] ++ pre ++ produce_diagnostics (op_inspect o) fc rs' ++ [Send OutputStderrMessage]) /\
        exists c, flat_map printed es ++ lines = [c] /\
        (exists content0 t errs file_rules rs ds, Some content = Some content0 /\
           parse_file dbg (file_after content0 ([Send FileProcessed; ReadFile] ++ pre ++ produce_diagnostics (op_inspect o) fc rs' ++ [Send OutputStderrMessage])) = Done (t, errs) /\
           incl file_rules definitions /\ run_rules cf file_rules t = Done rs /\
           diagnostics (mkFile (file_after content0 ([Send FileProcessed; ReadFile] ++ pre ++ produce_diagnostics (op_inspect o) fc rs' ++ [Send OutputStderrMessage])) t errs file_rules) rs = Done ds /\
           c = Buffer p ((if op_inspect o then [tree_diagnostic] else []) ++ ds)) /\
        (forall s, count_occ event_eq_dec (map forget es) (Report s) = messages_in s c) /\
        count_occ event_eq_dec (map forget es) FileProcessed = 1).
    { intros fc rs' pre P' I' R' Sp Wp. destruct (finish_facts (op_inspect o) fc rs' P' (incl_tran I' I) R') as (es & ds & E & D & S & Q & M).
      unfold output_messages. rewrite E. eexists. eexists. split; [reflexivity|]. split; [|eexists; split; [|split; [|split]]].
      - rewrite !sent_app, Sp. cbn [map forget sent flat_map app]. rewrite map_app, S. reflexivity.
      - rewrite app_nil_r. cbn [flat_map printed app]. rewrite flat_map_app, Q. reflexivity.
      - assert (FA : file_after content ([Send FileProcessed; ReadFile] ++ pre ++ produce_diagnostics (op_inspect o) fc rs' ++ [Send OutputStderrMessage]) = fc_source fc).
        { unfold file_after. rewrite !writes_app. change (writes [Send FileProcessed; ReadFile]) with (@nil text).
          pose proof (diagnostics_writes (op_inspect o) fc rs') as X. rewrite writes_app in X. rewrite X, app_nil_r. exact Wp. }
        exists content, (fc_tree fc), (fc_errors fc), (fc_rules fc), rs', ds. rewrite FA. destruct fc as [src' t' errs' rules']. repeat split; assumption.
      - intros s. cbn [map forget count_occ]. destruct (event_eq_dec FileProcessed (Report s)) as [X|_]; [discriminate X|].
        rewrite map_app, count_occ_app, M, counted. cbn [map forget count_occ messages_in].
        destruct (event_eq_dec OutputStderrMessage (Report s)) as [X|_]; [discriminate X|]. apply Nat.add_0_r.
      - cbn [map forget count_occ]. destruct (event_eq_dec FileProcessed FileProcessed) as [_|X]; [|now destruct X].
        rewrite map_app, count_occ_app, M, counted0. reflexivity. }
    destruct (op_fix o).
    - destruct (iteratively_apply_suggestions dbg sort cf _ rs) as [[[[fc' rs'] dirty] i]|e|] eqn:It.
      2:{ eexists. eexists. split; [reflexivity|]. split; [reflexivity|]. intros _. eexists. split; [reflexivity|]. split; [reflexivity|]. split; [intros s; destruct s; reflexivity|reflexivity]. }
      2:{ eexists. eexists. split; [reflexivity|]. split; [reflexivity|]. intros X. now destruct X. }
      apply C24_fix_loop_is_bounded_and_honest in It; [|split; assumption].
      destruct It as (_ & _ & (P' & R') & _ & F & D & _). cbn [fc_rules] in F. destruct dirty.
      + destruct (write_ok p).
        * destruct (Fin fc' rs' [WriteFile (fc_source fc')]) as (es & lines & E & S & c & H); try assumption; try reflexivity.
          { rewrite F. apply file_incl. }
          exists es, lines. split; [destruct (output_messages p _ _ _) as [? [?|?|]]; exact E|]. split; [exact S|]. intros _. exists c. exact H.
        * eexists. eexists. split; [reflexivity|]. split; [reflexivity|]. intros _. eexists. split; [reflexivity|]. split; [reflexivity|]. split; [intros s; destruct s; reflexivity|reflexivity].
      + destruct (D eq_refl) as (-> & -> & _).
        destruct (Fin (mkFile content t errs (get_file_active_rules (root_elem t) definitions)) rs []) as (es & lines & E & S & c & H); try assumption; try reflexivity; try apply file_incl.
        exists es, lines. split; [destruct (output_messages p _ _ _) as [? [?|?|]]; exact E|]. split; [exact S|]. intros _. exists c. exact H.
    - destruct (Fin (mkFile content t errs (get_file_active_rules (root_elem t) definitions)) rs []) as (es & lines & E & S & c & H); try assumption; try reflexivity; try apply file_incl.
      exists es, lines. split; [destruct (output_messages p _ _ _) as [? [?|?|]]; exact E|]. split; [exact S|]. intros _. exists c. exact H.
  Qed.
End Task.

(** * Merging the tasks *)

Lemma list_sum_concat {A : Type} (g : A -> nat) xss : list_sum (map g (concat xss)) = list_sum (map (fun xs => list_sum (map g xs)) xss).
Proof. induction xss as [|x l IH]; [reflexivity|]. cbn [concat map]. rewrite map_app, list_sum_app, IH. reflexivity. Qed.
Lemma list_sum_permutation l l' : Permutation l l' -> list_sum l = list_sum l'.
Proof. induction 1; cbn [list_sum fold_right]; try (unfold list_sum in *; cbn [fold_right] in *); lia. Qed.
Lemma flat_map_permutation {A B : Type} (g : A -> list B) l l' : Permutation l l' -> Permutation (flat_map g l) (flat_map g l').
Proof.
  induction 1 as [|x l l' _ IH|x y l|l l' l'' _ IH _ IH']; cbn [flat_map].
  - constructor.
  - apply Permutation_app_head, IH.
  - rewrite !app_assoc. apply Permutation_app_tail, Permutation_app_comm.
  - etransitivity; eassumption.
Qed.

Section Run.
  Context (dbg : bool) (sort : list (text * suggestion) -> out (list (text * suggestion))) (cf : config).
  Context (o : options) (rules : list rule) (write_ok : path -> bool) (f : files).
  Context (I : incl rules RULE_DEFINITIONS).
  Notation task p := (file_task dbg sort cf (op_fix o) (op_inspect o) (write_ok p) rules (f p)).
  Notation tmsg p := (task_messages dbg sort cf p (op_fix o) (op_inspect o) (write_ok p) rules (f p)).
  Notation piece := (piece_of dbg sort cf o rules write_ok f).

  Lemma walk_form es : walk_messages es =
    (repeat (MReport SError) (length (walk_reports es)), repeat WalkLine (length (walk_reports es))).
  Proof.
    unfold walk_messages. f_equal; unfold walk_reports;
      (induction es as [|[p|p|] es IH]; cbn [flat_map List.app]; try exact IH; [reflexivity|]; cbn [List.length repeat]; f_equal; exact IH).
  Qed.

  (** What all tasks together send and print. *)
  Lemma tasks_facts ps : (forall p, In p ps -> snd (task p) <> Crash) ->
    let tasks := map (fun p => tmsg p) ps in
    exists pieces, Forall2 piece ps pieces /\
      Permutation (flat_map printed (concat (map (fun t => fst (fst t)) tasks)) ++ concat (map (fun t => snd (fst t)) tasks)) pieces /\
      (forall s, count_occ event_eq_dec (map forget (concat (map (fun t => fst (fst t)) tasks))) (Report s) = messages_shown s pieces) /\
      count_occ event_eq_dec (map forget (concat (map (fun t => fst (fst t)) tasks))) FileProcessed = length ps.
  Proof.
    induction ps as [|p ps IH]; intros NC tasks; subst tasks.
    - exists []. repeat split; constructor.
    - destruct IH as (pieces & F & Pm & Ct & Cf); [intros q Hq; apply NC; now right|].
      pose proof (task_facts dbg sort cf o rules write_ok f I p) as T. unfold task_ok in T.
      specialize (NC p (or_introl eq_refl)).
      destruct (task p) as [effects oc]. cbn [snd fst] in NC.
      destruct T as (es & lines & Em & Fg & H). destruct (H NC) as (c & Pr & Pc & Cs & C1). exists (c :: pieces).
      cbn [map concat]. rewrite Em. cbn [fst snd]. split; [constructor; assumption|]. split; [|split].
      + rewrite flat_map_app, <- app_assoc. rewrite <- Pm. change (c :: ?x) with ([c] ++ x). rewrite <- Pr, <- app_assoc.
        apply Permutation_app_head. rewrite !app_assoc. apply Permutation_app_tail, Permutation_app_comm.
      + intros s. rewrite map_app, count_occ_app, Cs, Ct. reflexivity.
      + rewrite map_app, count_occ_app, Cf, C1. reflexivity.
  Qed.

  Lemma walk_length es : length (walk_reports es) = length (filter (fun e => match e with WalkFailed => true | _ => false end) es).
  Proof. unfold walk_reports. induction es as [|[p|p|] es IH]; cbn [flat_map List.app filter List.length]; try exact IH; [reflexivity|]. f_equal. exact IH. Qed.

  Lemma run_facts es summary stderr : (forall p, In p (spawned es) -> snd (task p) <> Crash) ->
    run_shows dbg sort cf o rules write_ok f es summary stderr ->
    exists pieces, Forall2 piece (spawned es) pieces /\
      Permutation stderr (pieces ++ repeat WalkLine (length (walk_reports es))) /\
      n_files summary = length (spawned es) /\
      n_errors summary = messages_shown SError stderr /\ n_warnings summary = messages_shown SWarning stderr /\
      n_helps summary = messages_shown SHelp stderr /\ n_infos summary = messages_shown SInfo stderr.
  Proof.
    intros NC (received & M1 & -> & M2). destruct (tasks_facts (spawned es) NC) as (pieces & F & Pm & Ct & Cf).
    apply merged_permutation in M1, M2. rewrite walk_form in M1, M2. cbn [fst snd handle_messages concat] in M1, M2.
    set (tasks := map (fun p => tmsg p) (spawned es)) in *.
    set (sentall := concat (map (fun t => fst (fst t)) tasks)) in *. set (lines := concat (map (fun t => snd (fst t)) tasks)) in *.
    set (k := length (walk_reports es)) in *.
    assert (PP : Permutation (flat_map printed received) (flat_map printed sentall)).
    { rewrite (flat_map_permutation _ _ _ M1), flat_map_app. replace (flat_map printed (repeat (MReport SError) k)) with (@nil chunk); [reflexivity|].
      clear. induction k; [reflexivity|assumption]. }
    assert (PS : Permutation stderr (pieces ++ repeat WalkLine k)).
    { rewrite M2, PP, <- Pm, <- app_assoc. apply Permutation_app_head, Permutation_app_comm. }
    exists pieces. split; [exact F|]. split; [exact PS|].
    assert (CO : forall e, count_occ event_eq_dec (map forget received) e = count_occ event_eq_dec (repeat (Report SError) k) e + count_occ event_eq_dec (map forget sentall) e).
    { intros e. rewrite (proj1 (Permutation_count_occ event_eq_dec _ _) (Permutation_map forget M1) e), map_app, count_occ_app. f_equal.
      clear. induction k as [|k IH]; [reflexivity|]. cbn [repeat map forget count_occ]. now rewrite IH. }
    assert (MS : forall s, messages_shown s stderr = messages_shown s pieces + (match s with SError => k | _ => 0 end)).
    { intros s. unfold messages_shown. rewrite (list_sum_permutation _ _ (Permutation_map (messages_in s) PS)), map_app, list_sum_app. f_equal.
      clear. induction k as [|k IH]; [destruct s; reflexivity|]. cbn [repeat map]. change (list_sum (?a :: ?l)) with (a + list_sum l). rewrite IH. destruct s; reflexivity. }
    assert (CR : forall s, count_occ event_eq_dec (repeat (Report SError) k) (Report s) = match s with SError => k | _ => 0 end).
    { intros s. clear. induction k as [|k IH]; [destruct s; reflexivity|]. cbn [repeat count_occ]. rewrite IH.
      destruct s; destruct (event_eq_dec _ _) as [E|E]; try discriminate E; try reflexivity. now destruct E. }
    assert (CZ : count_occ event_eq_dec (repeat (Report SError) k) FileProcessed = 0).
    { clear. induction k as [|k IH]; [reflexivity|]. cbn [repeat count_occ]. destruct (event_eq_dec _ _) as [E|_]; [discriminate E|exact IH]. }
    unfold handle_messages, handle_processing_output, count_events. cbn [fst]. rewrite count_from.
    cbn [n_files n_errors n_warnings n_helps n_infos Nat.add].
    rewrite !CO, !CR, CZ, Cf, !Ct, !MS. repeat split; lia.
  Qed.
End Run.

(** * C92 *)

(** Every file has exactly one piece of the output, in which all its messages stand together in
    their order, and nothing else is printed but the errors of the walk. *)
Theorem C92_one_piece_for_each_file : forall dbg sort cf o rules write_ok f es summary stderr,
  incl rules RULE_DEFINITIONS ->
  (forall p, In p (spawned es) -> snd (file_task dbg sort cf (op_fix o) (op_inspect o) (write_ok p) rules (f p)) <> Crash) ->
  run_shows dbg sort cf o rules write_ok f es summary stderr ->
  exists pieces, Forall2 (piece_of dbg sort cf o rules write_ok f) (spawned es) pieces /\
    Permutation stderr (pieces ++ repeat WalkLine (length (filter (fun e => match e with WalkFailed => true | _ => false end) es))).
Proof.
  intros dbg sort cf o rules write_ok f es summary stderr I NC R.
  destruct (run_facts dbg sort cf o rules write_ok f I es summary stderr NC R) as (pieces & F & P & _).
  rewrite walk_length in P. exists pieces. split; assumption.
Qed.

(** The numbers in the summary are those of the messages that are shown. *)
Theorem C92_summary_counts_what_is_shown : forall dbg sort cf o rules write_ok f es summary stderr,
  incl rules RULE_DEFINITIONS ->
  (forall p, In p (spawned es) -> snd (file_task dbg sort cf (op_fix o) (op_inspect o) (write_ok p) rules (f p)) <> Crash) ->
  run_shows dbg sort cf o rules write_ok f es summary stderr ->
  n_files summary = length (spawned es) /\
  n_errors summary = messages_shown SError stderr /\ n_warnings summary = messages_shown SWarning stderr /\
  n_helps summary = messages_shown SHelp stderr /\ n_infos summary = messages_shown SInfo stderr.
Proof.
  intros dbg sort cf o rules write_ok f es summary stderr I NC R.
  destruct (run_facts dbg sort cf o rules write_ok f I es summary stderr NC R) as (pieces & _ & _ & H). exact H.
Qed.

(** The exit code tells whether an error, warning or help is shown, provided that a file has been found. *)
Theorem C92_exit_code_tells_what_is_shown : forall dbg sort cf o rules write_ok f es summary stderr,
  incl rules RULE_DEFINITIONS ->
  (forall p, In p (spawned es) -> snd (file_task dbg sort cf (op_fix o) (op_inspect o) (write_ok p) rules (f p)) <> Crash) ->
  run_shows dbg sort cf o rules write_ok f es summary stderr -> spawned es <> [] ->
  (exit_code summary = 0 <-> forall c, In c stderr -> exists p ds, c = Buffer p ds /\ forall d, In d ds -> dg_severity d = SInfo) /\
  (exit_code summary = 0 \/ exit_code summary = 1).
Proof.
  intros dbg sort cf o rules write_ok f es summary stderr I NC R NE.
  destruct (C92_summary_counts_what_is_shown dbg sort cf o rules write_ok f es summary stderr I NC R) as (F & E & W & H & _).
  assert (Z : forall s, messages_shown s stderr = 0 <-> forall c, In c stderr -> messages_in s c = 0).
  { intros s. unfold messages_shown. clear. induction stderr as [|c l IH].
    - split; [intros _ c []|reflexivity].
    - cbn [map]. change (list_sum (?a :: ?l)) with (a + list_sum l). rewrite Nat.eq_add_0, IH. split.
      + intros [A B] x [<-|Hx]; auto.
      + intros A. split; [apply A; now left|]. intros x Hx. apply A. now right. }
  assert (N : forall s ds, messages_in s (Buffer [] ds) = 0 <-> forall d, In d ds -> dg_severity d <> s).
  { intros s ds. cbn [messages_in]. induction ds as [|d ds IH].
    - split; [intros _ d []|reflexivity].
    - cbn [filter]. split.
      + intros A x [<-|Hx].
        * intros Q. rewrite Q in A. destruct s; discriminate A.
        * apply IH; [|exact Hx]. destruct (match dg_severity d with SError => _ | _ => _ end); [discriminate A|exact A].
      + intros A. assert (B : dg_severity d <> s) by (apply A; now left).
        destruct (dg_severity d), s; try (exfalso; apply B; reflexivity); apply IH; intros x Hx; apply A; now right. }
  assert (FP : Nat.ltb 0 (n_files summary) = true).
  { rewrite F. destruct (spawned es); [contradiction|reflexivity]. }
  split; [|unfold exit_code; destruct (_ && _); auto].
  unfold exit_code. rewrite FP. cbn [andb]. rewrite E, W, H. split.
  - intros X c Hc.
    assert (ZE : messages_shown SError stderr = 0 /\ messages_shown SWarning stderr = 0 /\ messages_shown SHelp stderr = 0).
    { destruct (messages_shown SError stderr), (messages_shown SWarning stderr), (messages_shown SHelp stderr); try discriminate X; auto. }
    destruct ZE as (Z1 & Z2 & Z3). pose proof (proj1 (Z _) Z1 c Hc) as M1. pose proof (proj1 (Z _) Z2 c Hc) as M2. pose proof (proj1 (Z _) Z3 c Hc) as M3.
    destruct c as [p ds|p e|]; [|discriminate M1|discriminate M1]. exists p, ds. split; [reflexivity|]. intros d Hd.
    pose proof (proj1 (N SError ds) M1 d Hd). pose proof (proj1 (N SWarning ds) M2 d Hd). pose proof (proj1 (N SHelp ds) M3 d Hd).
    destruct (dg_severity d); congruence.
  - intros X.
    assert (A : forall s, s <> SInfo -> messages_shown s stderr = 0).
    { intros s Hs. apply Z. intros c Hc. destruct (X c Hc) as (p & ds & -> & Q). change (messages_in s (Buffer [] ds) = 0). apply N.
      intros d Hd. rewrite (Q d Hd). congruence. }
    rewrite !A by discriminate. reflexivity.
Qed.

(** The messages are those of the events of C28, C47 and C71: without their contents, a task sends what
    it sends there and ends in the same way. *)
Theorem C92_messages_refine_the_events : forall dbg sort cf p fix_opt inspect write_ok rules read,
  incl rules RULE_DEFINITIONS ->
  let '(es, _, ending) := task_messages dbg sort cf p fix_opt inspect write_ok rules read in
  (map forget es, ending) =
  (sent (fst (file_task dbg sort cf fix_opt inspect write_ok rules read)), snd (file_task dbg sort cf fix_opt inspect write_ok rules read)).
Proof.
  intros dbg sort cf p fix_opt inspect write_ok rules read I.
  pose proof (task_facts dbg sort cf (mkOptions fix_opt false false inspect) rules (fun _ => write_ok) (fun _ => read) I p) as T.
  unfold task_ok in T. cbn [op_fix op_inspect] in T. destruct (file_task dbg sort cf fix_opt inspect write_ok rules read) as [effects oc].
  destruct T as (es & lines & -> & E & _). cbn [fst snd]. now rewrite E.
Qed.

(** One file after the other is one of the ways to merge. *)
Lemma merged_concat {A : Type} (xss : list (list A)) : merged xss (concat xss).
Proof.
  assert (H : forall xss pre : list (list A), Forall (fun l => l = []) pre -> merged (pre ++ xss) (concat xss)).
  { clear. induction xss as [|xs xss IH]; intros pre P.
    - apply mg_done. now rewrite app_nil_r.
    - cbn [concat]. induction xs as [|x xs IHx].
      + change (pre ++ [] :: xss) with (pre ++ [[]] ++ xss). rewrite app_assoc. apply IH. apply Forall_app. split; [exact P|repeat constructor].
      + cbn [List.app]. apply mg_step. exact IHx. }
  exact (H xss [] (Forall_nil _)).
Qed.

(** A file with a syntax error and a finding, one that cannot be read, one in order and an entry that the walk cannot
    read, with the syntax trees: four errors, and a note for each of the two files that can be read, in four pieces. *)
Definition C92_files : files := fun p =>
  if text_eqb p (txt "a.twig") then Some C42_template else if text_eqb p (txt "c.twig") then Some (txt "{{ a }}" ++ [10%N]) else None.
Definition C92_walk : list walked :=
  [WalkedDirectory (txt "."); WalkedFile (txt "a.twig"); WalkFailed; WalkedFile (txt "b.twig"); WalkedFile (txt "c.twig")].
Definition C92_options : options := mkOptions false false false true.
Example C92_case :
  incl RULE_DEFINITIONS RULE_DEFINITIONS /\
  (forall p, In p (spawned C92_walk) -> snd (file_task true insertion_sort default_config false true true RULE_DEFINITIONS (C92_files p)) <> Crash) /\
  exists summary stderr,
    run_shows true insertion_sort default_config C92_options RULE_DEFINITIONS (fun _ => true) C92_files C92_walk summary stderr /\
    (n_files summary, n_errors summary, n_infos summary) = (3, 4, 2) /\
    map (fun c => match c with Buffer p ds => (p, length ds) | TaskError p _ => (p, 1) | WalkLine => ([], 1) end) stderr
    = [(txt "a.twig", 3); (txt "c.twig", 1); ([], 1); (txt "b.twig", 1)].
Proof.
  split; [apply incl_refl|]. split.
  - assert (E : forallb (fun p => match snd (file_task true insertion_sort default_config false true true RULE_DEFINITIONS (C92_files p)) with Crash => false | _ => true end)
      (spawned C92_walk) = true) by (vm_compute; reflexivity).
    rewrite forallb_forall in E. intros p Hp X. specialize (E p Hp). cbv beta in E. rewrite X in E. discriminate E.
  - eexists. eexists. split; [eexists; split; [apply merged_concat|]; split; [reflexivity|apply merged_concat]|].
    vm_compute. split; reflexivity.
Qed.

(** The exit codes of the run above and of one over the file in order only. *)
Example C92_case_exit_code :
  let shows es code := exists summary stderr,
    run_shows true insertion_sort default_config C92_options RULE_DEFINITIONS (fun _ => true) C92_files es summary stderr /\
    spawned es <> [] /\ exit_code summary = code in
  shows C92_walk 1 /\ shows [WalkedFile (txt "c.twig")] 0.
Proof.
  cbv zeta. split; (eexists; eexists; split; [eexists; split; [apply merged_concat|]; split; [reflexivity|apply merged_concat]|]);
    (split; [discriminate|vm_compute; reflexivity]).
Qed.

(** * C93: what the error of a file says *)

(** Without --fix every error names its file; with it, every error does except those of a file
    whose fixes do not come to an end or collide within one rule.
    What is missing: exactly those errors, see below. *)
Theorem C93_errors_name_their_file_partial : forall dbg sort cf p fix_opt inspect write_ok rules read events lines e io,
  task_messages dbg sort cf p fix_opt inspect write_ok rules read = (events, lines, Err e) ->
  lines = [TaskError p e] /\
  (fix_opt = false \/ (e <> MaxApplyIteration /\ forall rule, e <> OverlappingSuggestion rule) ->
   exists before after, task_error_text io p e = before ++ p ++ after).
Proof.
  intros dbg sort cf p fix_opt inspect write_ok rules read events lines e io E. unfold task_messages in E.
  destruct (process_messages dbg sort cf p fix_opt inspect write_ok rules read) as [es [u|e'|]] eqn:P; [discriminate E| |discriminate E].
  injection E as <- <- <-. split; [reflexivity|]. intros H.
  assert (K : e' = FileRead \/ e' = FileWrite).
  { destruct H as [->|[H1 H2]].
    - unfold process_messages in P. destruct read as [content|]; [|injection P as _ <-; now left].
      unfold analysis_messages in P. destruct (parse_file dbg content) as [[t errs]|]; [|discriminate P].
      destruct (run_rules cf _ t) as [rs|]; [|discriminate P]. unfold output_messages in P. destruct (produce_messages _ _ rs) as [[x y]|]; discriminate P.
    - destruct e' as [| | |r]; auto; [contradiction|]. exfalso. exact (H2 r eq_refl). }
  destruct K as [-> | ->]; eexists; eexists; reflexivity.
Qed.
(** A file that cannot be read, without --fix, and one that cannot be written. *)
Example C93_case :
  (exists events, task_messages true insertion_sort default_config (txt "b.twig") false false true RULE_DEFINITIONS None = (events, [TaskError (txt "b.twig") FileRead], Err FileRead)) /\
  (exists events, task_messages true insertion_sort default_config (txt "a.twig") true false false RULE_DEFINITIONS (Some C42_template) = (events, [TaskError (txt "a.twig") FileWrite], Err FileWrite)) /\
  task_error_text (txt "not found") (txt "b.twig") FileRead = txt "file b.twig can't be read: not found".
Proof. split; [|split]; [eexists; vm_compute; reflexivity|eexists; vm_compute; reflexivity|reflexivity]. Qed.

(** The error of a file that --fix gives up on is the same for every file, and it is all that is
    printed about that file: its messages are not shown. *)
Theorem C93_errors_name_their_file_refuted : exists content e,
  forall p, (exists events, task_messages true insertion_sort default_config p true false true RULE_DEFINITIONS (Some content)
              = (events, [TaskError p e], Err e) /\ flat_map printed events = []) /\
    forall q io io', task_error_text io p e = task_error_text io' q e.
Proof.
  exists (repeat 13%N 10 ++ [10%N]), MaxApplyIteration. intros p. split; [|reflexivity].
  assert (E : analysis_messages true insertion_sort default_config p true false true RULE_DEFINITIONS (repeat 13%N 10 ++ [10%N]) = ([], Err MaxApplyIteration)).
  { assert (H : forall p, match analysis_messages true insertion_sort default_config p true false true RULE_DEFINITIONS (repeat 13%N 10 ++ [10%N]) with
      ([], Err MaxApplyIteration) => true | _ => false end = true) by (intros q; vm_compute; reflexivity).
    specialize (H p). destruct (analysis_messages _ _ _ p _ _ _ _ _) as [[|ev evs] [?|[]|]]; try discriminate H. reflexivity. }
  unfold task_messages, process_messages. rewrite E. eexists. split; reflexivity.
Qed.

Print Assumptions C92_one_piece_for_each_file.
Print Assumptions C92_summary_counts_what_is_shown.
Print Assumptions C92_exit_code_tells_what_is_shown.
Print Assumptions C92_messages_refine_the_events.
Print Assumptions C93_errors_name_their_file_partial.
Print Assumptions C93_errors_name_their_file_refuted.
