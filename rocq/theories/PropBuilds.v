(** C69: what holds of a debug build holds of a release build. *)
From Coq Require Import NArith String Bool Arith Lia List.
Import ListNotations.
From Verif Require Import Text Kind Regex Lexer LexerProofs ParserApi GrammarExpr GrammarTags GrammarHtml Machine
  TreeMachine Simulation WpBase Total TotalHtml Builds
  TreeSpec Red Typed Rule Rules Check Process DefaultConfig.
Local Notation length := List.length (only parsing).
Local Open Scope list_scope.

Lemma parse_builds : forall T, T <> [] ->
  parse_tokens true (parse_fuel T) T = parse_tokens false (parse_fuel T) T \/
  parse_tokens true (parse_fuel T) T = Panicked (PDebugAssert SArrow).
Proof.
  intros T HT. pose proof (parse_tokens_sim true (parse_fuel T) T) as HD.
  pose proof (parse_tokens_sim false (parse_fuel T) T) as HR.
  pose proof (root_wp_mode Both T HT (t_root T)) as W. unfold parse_fuel in *.
  assert (Hw : wf T (t_root T)).
  { constructor; cbn [t_root t_rest t_snk t_items t_stack t_errs]; auto.
    - exists []. reflexivity.
    - exists []. split; [reflexivity|]. cbn. constructor.
    - exists Apart. split; [reflexivity|]. congruence. }
  specialize (W Hw eq_refl eq_refl eq_refl).
  pose proof (release_run T (2 * length T + 1) _ root_body (t_root T)) as R.
  pose proof (debug_run T q_body (2 * length T + 1) _ root_body false (t_root T) (t_root T) q_root_body
    ltac:(repeat split; auto)) as D.
  destruct (run (bstep Both T) (2 * length T + 1) root_body (t_root T)) as [[u s]|q|]; cbn [holds] in W; [| |destruct W].
  - left. cbn [release_like debug_like] in R, D. rewrite R in HR. destruct D as (d & D & N). rewrite D in HD.
    destruct N as ([N|[N _]] & N1 & N2 & N3 & N4 & N5); [|discriminate].
    destruct W as ([W1 W2 W3 W4 W5] & Hd & Hs). rewrite <- W1 in Hd. rewrite (HR Hs Hd).
    rewrite N1, N3 in HD. rewrite (HD Hs Hd). now rewrite N2, N5.
  - destruct W as [[_ ->]|[_ [->|[->| ->]]]]; cbn [release_like debug_like] in R, D; rewrite D in HD.
    + right. exact HD.
    + left. rewrite R in HR. now rewrite HD, HR.
    + left. rewrite R in HR. now rewrite HD, HR.
    + left. rewrite R in HR. now rewrite HD, HR.
Qed.

(** The parser of a debug build and that of a release build do the same - tree, errors, panics -
    unless the debug build panics at the assertion of an arrow function. *)
Theorem C69_builds_parse_alike : forall src,
  parse_src true src = parse_src false src \/ parse_src true src = Panicked (PDebugAssert SArrow).
Proof.
  intros src. unfold parse_src. destruct (lex src) as [|t T] eqn:E.
  - left. vm_compute. reflexivity.
  - apply parse_builds. discriminate.
Qed.

(** Both cases occur.  In the first the assertions are evaluated: a filter, an array, a hash, and
    arrow functions of both kinds, one with a missing body. *)
Definition arrows : text :=
  txt "<div {% if a %}id='b'{% endif %}>{{ [1, {a: 2}]|filter(v => v > 1)|map((k, v) => k) }} {{ a|map((b,c) =>) }}{% for"%string.
Example C69_case_alike : exists t errs, parse_src true arrows = OK (t, errs) /\ length errs > 2 /\ length (leaves t) > 60.
Proof.
  assert (E : match parse_src true arrows with OK (t, errs) => Nat.ltb 2 (length errs) && Nat.ltb 60 (length (leaves t)) | _ => false end = true)
    by (vm_compute; reflexivity).
  destruct (parse_src true arrows) as [[t errs]| |]; [|discriminate E|discriminate E]. apply andb_true_iff in E as [E1 E2].
  apply Nat.ltb_lt in E1, E2. exists t, errs. auto.
Qed.
Example C69_case_assertion : parse_src true (txt "{{ (a, b) + c }}"%string) = Panicked (PDebugAssert SArrow) /\
  exists t, parse_src false (txt "{{ (a, b) + c }}"%string) = OK (t, []).
Proof. split; [vm_compute; reflexivity|]. eexists. vm_compute. reflexivity. Qed.

(** * The task of a file *)

Lemma parse_file_alike src : parse_file true src = parse_file false src \/ parse_file true src = Crashed.
Proof. unfold parse_file. destruct (C69_builds_parse_alike src) as [->| ->]; auto. Qed.

Lemma fix_loop_alike sort cf : forall n i fc rs dirty,
  fix_loop true sort cf n i fc rs dirty = fix_loop false sort cf n i fc rs dirty \/
  fix_loop true sort cf n i fc rs dirty = Crash.
Proof.
  induction n as [|n IH]; intros i fc rs dirty; [now left|]. cbn [fix_loop].
  destruct (rule_suggestions rs) as [|s l]; [now left|]. destruct (sort (s :: l)) as [sorted|]; [|now left].
  destruct (select_suggestions sorted) as [e|chosen]; [now left|]. destruct (apply_suggestions chosen (fc_source fc)) as [src|]; [|now left].
  destruct (parse_file_alike src) as [->| ->]; [|now right]. destruct (parse_file false src) as [[t errs]|]; [|now left].
  destruct (run_rules cf (fc_rules fc) t) as [rs'|]; [|now left]. apply IH.
Qed.

Lemma run_analysis_alike sort cf fix_opt inspect write_ok definitions content :
  run_analysis true sort cf fix_opt inspect write_ok definitions content =
    run_analysis false sort cf fix_opt inspect write_ok definitions content \/
  run_analysis true sort cf fix_opt inspect write_ok definitions content = ([], Crash).
Proof.
  unfold run_analysis. destruct (parse_file_alike content) as [->| ->]; [|now right].
  destruct (parse_file false content) as [[t errs]|]; [|now left]. cbv zeta. destruct (run_rules cf _ t) as [rs|]; [|now left].
  destruct fix_opt; [|now left]. unfold iteratively_apply_suggestions.
  destruct (fix_loop_alike sort cf 10 0 (mkFile content t errs (get_file_active_rules (root_elem t) definitions)) rs false) as [->| ->];
    [now left|now right].
Qed.

(** The task of a file - what it sends, what it writes, how it ends - is the same in both builds,
    unless it crashes in the debug build before anything is written or reported. *)
Theorem C69_builds_check_alike : forall sort cf fix_opt inspect write_ok definitions read,
  file_task true sort cf fix_opt inspect write_ok definitions read =
    file_task false sort cf fix_opt inspect write_ok definitions read \/
  file_task true sort cf fix_opt inspect write_ok definitions read = ([Send FileProcessed; ReadFile], Crash).
Proof.
  intros sort cf fix_opt inspect write_ok definitions [content|]; [|now left]. unfold file_task, process_file.
  destruct (run_analysis_alike sort cf fix_opt inspect write_ok definitions content) as [->| ->]; [now left|now right].
Qed.

Print Assumptions C69_builds_parse_alike.
Print Assumptions C69_builds_check_alike.
