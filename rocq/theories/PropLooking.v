(** C90: looking changes nothing: the options --inspect and --verbose. *)
From Coq Require Import NArith ZArith Arith Bool Lia String List.
Import ListNotations.
From Verif Require Import Text Red Rule Rules Check Process Output PropOutput Session ConfigLoad Main.
From Verif Require PropConfig PropSession PropMain DefaultConfig.
Local Open Scope list_scope.
Local Notation length := List.length (only parsing).

(** * Without notes *)

(** An event that is no note for information. *)
Definition counts (e : event) : bool := match e with Report SInfo => false | _ => true end.
Definition does (e : effect) : bool := match e with Send e => counts e | _ => true end.
(** The same but for notes for information. *)
Definition same_events (a b : list event) : Prop := filter counts a = filter counts b.

Section Looking.
  Context (dbg : bool) (sort : list (text * suggestion) -> out (list (text * suggestion))) (cf : config).
  Context (fix_opt : bool) (definitions : list rule) (write_ok : path -> bool).

  Lemma task_same i j ok read :
    (exists x y l, fst (file_task dbg sort cf fix_opt i ok definitions read) = x ++ l /\
      fst (file_task dbg sort cf fix_opt j ok definitions read) = x ++ y /\ length x = 2 /\ filter does l = filter does y) /\
    snd (file_task dbg sort cf fix_opt i ok definitions read) = snd (file_task dbg sort cf fix_opt j ok definitions read).
  Proof.
    assert (P : forall fc rs, filter does (produce_diagnostics i fc rs ++ [Send OutputStderrMessage]) = filter does (produce_diagnostics j fc rs ++ [Send OutputStderrMessage])).
    { intros fc rs. unfold produce_diagnostics. destruct i, j; reflexivity. }
    assert (A : forall content, filter does (fst (run_analysis dbg sort cf fix_opt i ok definitions content)) = filter does (fst (run_analysis dbg sort cf fix_opt j ok definitions content))
       /\ snd (run_analysis dbg sort cf fix_opt i ok definitions content) = snd (run_analysis dbg sort cf fix_opt j ok definitions content)).
    { intros content. unfold run_analysis. destruct (parse_file dbg content) as [[t errs]|]; [|split; reflexivity].
      destruct (run_rules cf _ t) as [rs|]; [|split; reflexivity]. destruct fix_opt; [|split; [apply P|reflexivity]].
      destruct (iteratively_apply_suggestions dbg sort cf _ rs) as [[[[fc' rs'] dirty] n]|e|]; [|split; reflexivity..].
      destruct dirty; [|split; [apply P|reflexivity]]. destruct ok; [|split; reflexivity]. split; [|reflexivity].
      cbn [fst filter does]. f_equal. apply P. }
    unfold file_task, process_file. destruct read as [content|].
    - destruct (A content) as [A1 A2]. destruct (run_analysis dbg sort cf fix_opt i ok definitions content) as [e1 o1].
      destruct (run_analysis dbg sort cf fix_opt j ok definitions content) as [e2 o2]. cbn [fst snd] in A1, A2. subst o2.
      destruct o1 as [u|e|]; cbn [fst snd]; (split; [|reflexivity]).
      + eexists [Send FileProcessed; ReadFile], _, _. split; [reflexivity|]. split; [reflexivity|]. split; [reflexivity|exact A1].
      + eexists [Send FileProcessed; ReadFile], _, _. rewrite <- !app_assoc. split; [reflexivity|]. split; [reflexivity|]. split; [reflexivity|]. rewrite !filter_app, A1. reflexivity.
      + eexists [Send FileProcessed; ReadFile], _, _. split; [reflexivity|]. split; [reflexivity|]. split; [reflexivity|exact A1].
    - split; [|reflexivity]. eexists [Send FileProcessed; ReadFile], _, _. split; [reflexivity|]. split; [reflexivity|]. split; reflexivity.
  Qed.

  (** The second task is ready for its next effect that is no note. *)
  Definition ready (l : list effect) : Prop := match l with e :: _ => does e = true | [] => True end.
  Definition related (a b : work) : Prop :=
    match a, b with
    | Waiting, Waiting | Begun, Begun => True
    | Doing l, Doing m => filter does l = filter does m /\ ready m
    | Writing c k l, Writing c' k' m => c = c' /\ k = k' /\ filter does l = filter does m
    | _, _ => False
    end.
  Definition tasks_related (a b : list (path * work)) : Prop :=
    Forall2 (fun x y => fst x = fst y /\ related (snd x) (snd y)) a b.

  Context (i j : bool).
  Local Notation stepsi := (steps dbg sort cf fix_opt i definitions write_ok).
  Local Notation stepsj := (steps dbg sort cf fix_opt j definitions write_ok).
  Local Notation stepj := (step dbg sort cf fix_opt j definitions write_ok).

  Lemma steps_trans a b c : stepsj a b -> stepsj b c -> stepsj a c.
  Proof. intros H1 H2. induction H2 as [|w w1 w2 _ IH S]; [exact H1|]. eapply steps_more; [exact (IH H1)|exact S]. Qed.

  (** Sending the notes that are due. *)
  Lemma flush f l p r : forall todo es, exists todo' es', stepsj (mkWorld f (l ++ (p, Doing todo) :: r) es) (mkWorld f (l ++ (p, Doing todo') :: r) es') /\
    filter does todo' = filter does todo /\ ready todo' /\ same_events es' es.
  Proof.
    induction todo as [|e todo IH]; intros es.
    - exists [], es. split; [apply steps_none|]. split; [reflexivity|]. split; [exact I|reflexivity].
    - destruct (does e) eqn:D.
      + exists (e :: todo), es. split; [apply steps_none|]. split; [reflexivity|]. split; [exact D|reflexivity].
      + destruct e as [v| |]; [|discriminate D..]. destruct (IH (es ++ [v])) as (t' & es' & S & F & R & E).
        exists t', es'. split.
        * refine (steps_trans _ _ _ _ S). eapply steps_more; [apply steps_none|]. apply step_task. apply a_send.
        * split; [cbn [filter]; rewrite D; exact F|]. split; [exact R|]. unfold same_events in *. rewrite E, filter_app. cbn [filter does] in *. rewrite D. apply app_nil_r.
  Qed.

  Lemma simulate f es p w f' w' new es2 l2 w2 r2 :
    act dbg sort cf fix_opt i definitions write_ok f p w w' f' new -> related w w2 -> same_events es es2 ->
    exists w2' es2', stepsj (mkWorld f (l2 ++ (p, w2) :: r2) es2) (mkWorld f' (l2 ++ (p, w2') :: r2) es2') /\
      related w' w2' /\ same_events (es ++ new) es2'.
  Proof.
    intros A R E.
    assert (ONE : forall v v' g new' es0, act dbg sort cf fix_opt j definitions write_ok f p v v' g new' ->
      stepsj (mkWorld f (l2 ++ (p, v) :: r2) es0) (mkWorld g (l2 ++ (p, v') :: r2) (es0 ++ new'))).
    { intros v v' g new' es0 H. eapply steps_more; [apply steps_none|]. now apply step_task. }
    destruct A as [| |e m|c m|c k m K|c m K|c m K|c k m K].
    - destruct w2; try contradiction R. eexists _, _. split; [apply ONE, a_begin|]. split; [exact I|]. unfold same_events in *. now rewrite !filter_app, E.
    - destruct w2; try contradiction R. destruct (task_same i j (write_ok p) (f p)) as ((x & y & z & T1 & T2 & L & F) & _).
      destruct (flush f l2 p r2 (skipn 2 (task_effects dbg sort cf fix_opt j definitions write_ok p (f p))) (es2 ++ [])) as (t' & es' & S & F' & Rd & E').
      exists (Doing t'), es'. split; [refine (steps_trans _ _ _ _ S); apply ONE, a_read|]. split.
      + cbn [related]. split; [|exact Rd]. rewrite F'. unfold task_effects. rewrite T1, T2.
        destruct x as [|x1 [|x2 [|x3 x]]]; [discriminate L..| |discriminate L]. exact F.
      + unfold same_events in *. rewrite E', app_nil_r, app_nil_r. exact E.
    - destruct w2 as [| |m2|]; try contradiction R. destruct R as [R Rd]. destruct (counts e) eqn:C.
      + destruct m2 as [|e2 m2]; cbn [filter does] in R; rewrite C in R; [discriminate R|]. cbn [ready] in Rd. cbn [filter] in R. rewrite Rd in R.
        injection R as <- R. destruct (flush f l2 p r2 m2 (es2 ++ [e])) as (t' & es' & S & F' & Rd' & E').
        exists (Doing t'), es'. split; [refine (steps_trans _ _ _ _ S); apply ONE, a_send|]. split; [split; [now rewrite F'|exact Rd']|].
        unfold same_events in *. rewrite E', !filter_app, E. reflexivity.
      + exists (Doing m2), es2. split; [apply steps_none|]. split.
        * split; [|exact Rd]. cbn [filter does] in R. rewrite C in R. exact R.
        * unfold same_events in *. rewrite filter_app. cbn [filter]. rewrite C, app_nil_r. exact E.
    - destruct w2 as [| |m2|]; try contradiction R. destruct R as [R Rd]. destruct m2 as [|e2 m2]; cbn [filter does] in R; [discriminate R|].
      cbn [ready] in Rd. rewrite Rd in R. injection R as <- R. eexists _, _. split; [apply ONE, a_open|]. split; [split; [reflexivity|split; [reflexivity|exact R]]|].
      unfold same_events in *. now rewrite !app_nil_r.
    - destruct w2 as [| | |c2 k2 m2]; try contradiction R. destruct R as (<- & <- & R). eexists _, _. split; [apply ONE, a_put; exact K|].
      split; [split; [reflexivity|split; [reflexivity|exact R]]|]. unfold same_events in *. now rewrite !app_nil_r.
    - destruct w2 as [| | |c2 k2 m2]; try contradiction R. destruct R as (<- & <- & R).
      destruct (flush f l2 p r2 m2 (es2 ++ [])) as (t' & es' & S & F' & Rd' & E').
      exists (Doing t'), es'. split; [refine (steps_trans _ _ _ _ S); apply ONE, a_close; exact K|]. split; [split; [now rewrite F'|exact Rd']|].
      unfold same_events in *. rewrite E', !app_nil_r. exact E.
    - destruct w2 as [| |m2|]; try contradiction R. destruct R as [R Rd]. destruct m2 as [|e2 m2]; cbn [filter does] in R; [discriminate R|].
      cbn [ready] in Rd. rewrite Rd in R. injection R as <- R.
      destruct (flush f l2 p r2 m2 (es2 ++ [])) as (t' & es' & S & F' & Rd' & E').
      exists (Doing t'), es'. split; [refine (steps_trans _ _ _ _ S); eapply ONE, a_not_opened; exact K|]. split; [split; [now rewrite F'|exact Rd']|].
      unfold same_events in *. rewrite E', !app_nil_r. exact E.
    - destruct w2 as [| | |c2 k2 m2]; try contradiction R. destruct R as (<- & <- & R).
      destruct (flush f l2 p r2 m2 (es2 ++ [])) as (t' & es' & S & F' & Rd' & E').
      exists (Doing t'), es'. split; [refine (steps_trans _ _ _ _ S); eapply ONE, a_failed; exact K|]. split; [split; [now rewrite F'|exact Rd']|].
      unfold same_events in *. rewrite E', !app_nil_r. exact E.
  Qed.

  Lemma simulate_steps f paths w : stepsi (start f paths) w ->
    exists w', stepsj (start f paths) w' /\ w_files w' = w_files w /\ tasks_related (w_tasks w) (w_tasks w') /\ same_events (w_events w) (w_events w').
  Proof.
    intros H. remember (start f paths) as w0 eqn:E0. induction H as [w|w w1 w2 _ IH S]; subst w.
    - exists (start f paths). split; [apply steps_none|]. split; [reflexivity|]. split; [|reflexivity]. cbn [start w_tasks].
      induction paths as [|p ps IHp]; cbn [map]; constructor; [split; [reflexivity|exact I]|exact IHp].
    - destruct (IH eq_refl) as (v & Sv & Ff & T & E). destruct S as [g l p x r es x' g' new A]. cbn [w_files w_tasks w_events] in *.
      destruct v as [g0 ts es2]. cbn [w_files w_tasks w_events] in *. subst g0.
      apply Forall2_app_inv_l in T as (l2 & r2' & Tl & Tr & ->). inversion Tr as [|? [p2 x2] ? r2 [Ep Rx] Tr']; subst. cbn [fst snd] in *. subst p2.
      destruct (simulate g es p x g' x' new es2 l2 x2 r2 A Rx E) as (x2' & es2' & S' & Rx' & E').
      eexists. split; [exact (steps_trans _ _ _ Sv S')|]. cbn [w_files w_tasks w_events]. split; [reflexivity|]. split; [|exact E'].
      apply Forall2_app; [exact Tl|]. constructor; [split; [reflexivity|exact Rx']|exact Tr'].
  Qed.

  Lemma related_finished w w' : tasks_related (w_tasks w) (w_tasks w') -> finished w -> finished w'.
  Proof.
    unfold finished. intros T. induction T as [|[p x] [q y] l m [_ R] _ IH]; intros F; [constructor|].
    inversion F as [|? ? Hx Fl]; subst. cbn [snd] in *. subst x. constructor; [|exact (IH Fl)]. cbn [snd].
    destruct y as [| |[|e m']|]; try contradiction R; [reflexivity|]. destruct R as [R Rd]. cbn [filter ready] in *. rewrite Rd in R. discriminate R.
  Qed.
End Looking.

Lemma interleaves_both : forall a b, interleaves [a; b] (a ++ b).
Proof.
  intros a b. induction a as [|x a IH]; cbn [app].
  - induction b as [|y b IH]; [apply il_done; repeat constructor|]. exact (il_step [[]] y b [] b IH).
  - exact (il_step [] x a [b] (a ++ b) IH).
Qed.
Lemma count_same e a b : counts e = true -> same_events a b -> count_occ event_eq_dec a e = count_occ event_eq_dec b e.
Proof.
  intros C S. assert (F : forall l, count_occ event_eq_dec l e = count_occ event_eq_dec (filter counts l) e).
  { induction l as [|x l IH]; [reflexivity|]. cbn [filter count_occ]. destruct (event_eq_dec x e) as [->|N].
    - rewrite C. cbn [count_occ]. destruct (event_eq_dec e e); [|contradiction]. now rewrite IH.
    - destruct (counts x); cbn [count_occ]; [destruct (event_eq_dec x e); [contradiction|exact IH]|exact IH]. }
  rewrite (F a), (F b). now rewrite S.
Qed.
Lemma code_same a b c ra rb : same_events a b -> interleaves [a; c] ra -> interleaves [b; c] rb ->
  snd (handle_processing_output ra) = snd (handle_processing_output rb).
Proof.
  intros S A B. rewrite (C28_totals_are_sums_for_any_interleaving _ _ A), (C28_totals_are_sums_for_any_interleaving _ _ B). cbn [snd].
  assert (T : forall e, counts e = true -> times e [a; c] = times e [b; c]).
  { intros e C. unfold times. cbn [map]. now rewrite (count_same e a b C S). }
  rewrite !T by reflexivity. reflexivity.
Qed.

(** * C90 *)

(** A run with other values of --inspect and --verbose, and otherwise the same: everything the
    program may do to the files and every exit code it may end with is the same. *)
Theorem C90_looking_changes_nothing : forall dbg sort toml env_value by_number default_raw version write_ok definitions o o' l env ignore_ok es f f' code,
  op_fix o = op_fix o' -> op_create o = op_create o' ->
  program dbg sort toml env_value by_number default_raw version write_ok definitions o l env ignore_ok es f f' code ->
  program dbg sort toml env_value by_number default_raw version write_ok definitions o' l env ignore_ok es f f' code.
Proof.
  intros dbg sort toml env_value by_number default_raw version write_ok definitions o o' l env ignore_ok es f f' code EF EC H.
  assert (HC : outcome (handle_config toml env_value by_number default_raw version (op_create o) (op_verbose o) l env)
    = outcome (handle_config toml env_value by_number default_raw version (op_create o') (op_verbose o') l env)).
  { rewrite EC. unfold handle_config. destruct (op_create o'); [reflexivity|]. destruct (config_new _ _ _ _ _ _); reflexivity. }
  assert (TP : forall cf rules p, task_panics dbg sort write_ok cf o rules f p <-> task_panics dbg sort write_ok cf o' rules f p).
  { intros cf rules p. unfold task_panics. rewrite EF. rewrite (proj2 (task_same dbg sort cf (op_fix o') rules (op_inspect o) (op_inspect o') (write_ok p) (f p))). reflexivity. }
  destruct H as [code H|c n H R|c rules H R I|c rules w H R I S F (p & Ip & P)|c rules w received H R I S F NP IL]; rewrite HC in H.
  - now apply p_config.
  - eapply p_rules; eassumption.
  - eapply p_ignore; eassumption.
  - rewrite EF in S. destruct (simulate_steps dbg sort (ld_config c) (op_fix o') rules write_ok (op_inspect o) (op_inspect o') f _ w S) as (w' & S' & Ff & T & E).
    rewrite <- Ff. eapply p_panic; [exact H|exact R|exact I|exact S'|exact (related_finished w w' T F)|]. exists p. split; [exact Ip|]. now apply TP.
  - rewrite EF in S. destruct (simulate_steps dbg sort (ld_config c) (op_fix o') rules write_ok (op_inspect o) (op_inspect o') f _ w S) as (w' & S' & Ff & T & E).
    rewrite <- Ff. rewrite (code_same _ _ _ _ _ E IL (interleaves_both (w_events w') (walk_reports es))).
    eapply p_run; [exact H|exact R|exact I|exact S'|exact (related_finished w w' T F)| |apply interleaves_both].
    intros p Ip P. apply (NP p Ip). now apply TP.
Qed.

(** The work on one file, effect by effect: with --inspect there is a note for information more,
    the other reports, what is written and the order are the same. *)
Theorem C90_inspecting_adds_only_notes : forall dbg sort cf fix_opt write_ok definitions read,
  let with_notes := file_task dbg sort cf fix_opt true write_ok definitions read in
  let without := file_task dbg sort cf fix_opt false write_ok definitions read in
  filter (fun e => match e with Send (Report SInfo) => false | _ => true end) (fst with_notes)
  = filter (fun e => match e with Send (Report SInfo) => false | _ => true end) (fst without) /\
  snd with_notes = snd without.
Proof.
  intros dbg sort cf fix_opt write_ok definitions read with_notes without.
  destruct (task_same dbg sort cf fix_opt definitions true false write_ok read) as ((x & y & l & A & B & _ & F) & E).
  split; [|exact E]. unfold with_notes, without. rewrite A, B, !filter_app. f_equal.
  transitivity (filter does l); [apply filter_ext; intros [[|[]|]| |]; reflexivity|]. rewrite F. apply filter_ext. intros [[|[]|]| |]; reflexivity.
Qed.

(** What is said about the configuration with --verbose: the values that are used, at the end. *)
Theorem C90_verbose_adds_only_the_values : forall toml env_value by_number default_raw version create l env,
  let talkative := handle_config toml env_value by_number default_raw version create true l env in
  let silent := handle_config toml env_value by_number default_raw version create false l env in
  (messages talkative = messages silent \/ messages talkative = messages silent ++ [UsedValues]) /\
  written talkative = written silent /\ outcome talkative = outcome silent.
Proof.
  intros. unfold talkative, silent, handle_config. destruct create; [destruct (here l); split; [left; reflexivity|split; reflexivity|left; reflexivity|split; reflexivity]|].
  destruct (config_new _ _ _ _ _ _) as [c|]; (split; [|split; reflexivity]); cbn [messages]; [right|left; reflexivity].
  rewrite !app_nil_r, <- !app_assoc. reflexivity.
Qed.
(** The second case occurs. *)
Example C90_case_verbose :
  messages (handle_config PropConfig.some_toml PropConfig.plain_env PropConfig.no_number (txt "built in"%string) (txt "1"%string) false true (mkLocation None []) [])
  = messages (handle_config PropConfig.some_toml PropConfig.plain_env PropConfig.no_number (txt "built in"%string) (txt "1"%string) false false (mkLocation None []) []) ++ [UsedValues].
Proof. vm_compute. reflexivity. Qed.

(** A run with --fix that changes one of two files (C71_case_fix, with --verbose): with --inspect
    and without --verbose it may do the same. *)
Example C90_case : exists f', PropMain.C71_program (mkOptions true false false true) PropMain.C71_place [] true PropMain.C71_found PropSession.two_texts f' 0 /\
  f' PropSession.pa = Some PropSession.after /\ PropSession.two_texts PropSession.pa = Some PropSession.before.
Proof.
  destruct PropMain.C71_case_fix as (f' & P & A & _ & B & _). exists f'. split; [|split; [exact A|exact B]].
  eapply C90_looking_changes_nothing; [| |exact P]; reflexivity.
Qed.

(** One file: with --inspect there is one note more, in front of the other reports. *)
Example C90_case_notes :
  let src := txt "{{ a && b }}<p id='x'>{{ c"%string in
  let task b := fst (file_task true insertion_sort DefaultConfig.default_config false b true RULE_DEFINITIONS (Some src)) in
  exists l r, task true = l ++ Send (Report SInfo) :: r /\ task false = l ++ r /\ List.length (task false) > 6.
Proof.
  cbv zeta. exists [Send FileProcessed; ReadFile]. eexists. split; [vm_compute; reflexivity|]. split; [vm_compute; reflexivity|]. vm_compute. repeat constructor.
Qed.

Print Assumptions C90_looking_changes_nothing.
Print Assumptions C90_inspecting_adds_only_notes.
Print Assumptions C90_verbose_adds_only_the_values.
