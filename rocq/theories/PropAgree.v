(** Property theorems: fixing and checking agree: C95. *)
From Coq Require Import NArith String Bool Arith Lia List.
Import ListNotations.
From Verif Require Import Text Kind Machine TreeSpec Red Typed Rule Rules Check Process Output Diagnostics Session Main Shown DefaultConfig
  PropProcess PropReport PropShown PropTwice.
Local Open Scope string_scope.
Local Open Scope list_scope.
Local Notation length := List.length (only parsing).

(** The two texts switch off the same rules for the whole file. *)
Definition same_directives (dbg : bool) (rules : list rule) (a b : text) : Prop :=
  forall t errs t' errs', parse_file dbg a = Done (t, errs) -> parse_file dbg b = Done (t', errs') ->
    get_file_active_rules (root_elem t') rules = get_file_active_rules (root_elem t) rules.

Section Agree.
  Context (dbg : bool) (sort : list (text * suggestion) -> out (list (text * suggestion))) (cf : config).

  (** What --fix says about a file is, message by message, what a check says about the text that is in
      the file afterwards. *)
  Theorem C95_fixing_says_what_checking_says_afterwards : forall p inspect write_ok write_ok2 rules content effects,
    file_task dbg sort cf true inspect write_ok rules (Some content) = (effects, Ok tt) ->
    same_directives dbg rules content (file_after content effects) ->
    task_messages dbg sort cf p true inspect write_ok rules (Some content)
    = task_messages dbg sort cf p false inspect write_ok2 rules (Some (file_after content effects)).
  Proof.
    intros p inspect write_ok write_ok2 rules content effects E SD.
    assert (Plain : forall l, effects = [Send FileProcessed; ReadFile] ++ l -> writes l = [] -> file_after content effects = content).
    { intros l -> W. unfold file_after. rewrite writes_app, W. reflexivity. }
    unfold file_task, process_file, run_analysis in E. unfold task_messages, process_messages, analysis_messages.
    destruct (parse_file dbg content) as [[t errs]|] eqn:P; [|discriminate].
    destruct (run_rules cf (get_file_active_rules (root_elem t) rules) t) as [rs|] eqn:R; [|discriminate].
    destruct (iteratively_apply_suggestions dbg sort cf _ rs) as [[[[fc' rs'] dirty] i]|e|] eqn:It; try discriminate.
    destruct (C24_fix_loop_is_bounded_and_honest dbg sort cf (mkFile content t errs (get_file_active_rules (root_elem t) rules)) rs fc' rs' dirty i (conj P R) It)
      as (_ & _ & (P' & R') & _ & F & D & _). cbn [fc_rules] in F. destruct dirty.
    - destruct write_ok; [|discriminate]. injection E as E.
      assert (FA : file_after content effects = fc_source fc').
      { rewrite <- E. unfold file_after. cbn [writes flat_map List.app].
        fold (writes (produce_diagnostics inspect fc' rs' ++ [Send OutputStderrMessage])). rewrite diagnostics_writes. reflexivity. }
      rewrite FA in *. rewrite P'. rewrite (SD _ _ _ _ P P'), <- F, R'. destruct fc' as [src' t' errs' rules']. reflexivity.
    - destruct (D eq_refl) as (-> & -> & _). injection E as E.
      rewrite (Plain _ (eq_sym E) (diagnostics_writes _ _ _)), P, R. reflexivity.
  Qed.

  (** If no rule has anything to suggest, --fix is a check. *)
  Theorem C95_without_suggestions_fixing_is_checking : forall p inspect write_ok rules content t errs rs,
    parse_file dbg content = Done (t, errs) ->
    run_rules cf (get_file_active_rules (root_elem t) rules) t = Done rs ->
    (forall r, In r rs -> rs_suggestions r = []) ->
    file_task dbg sort cf true inspect write_ok rules (Some content) = file_task dbg sort cf false inspect write_ok rules (Some content) /\
    task_messages dbg sort cf p true inspect write_ok rules (Some content) = task_messages dbg sort cf p false inspect write_ok rules (Some content).
  Proof.
    intros p inspect write_ok rules content t errs rs P R N.
    assert (Z : rule_suggestions rs = []).
    { clear - N. induction rs as [|r rs IH]; [reflexivity|]. unfold rule_suggestions in *. cbn [flat_map]. rewrite (N r (or_introl eq_refl)). cbn [map List.app].
      apply IH. intros x Hx. apply N. now right. }
    unfold file_task, process_file, run_analysis, task_messages, process_messages, analysis_messages. rewrite P, R.
    unfold iteratively_apply_suggestions. cbn [fix_loop]. rewrite Z. split; reflexivity.
  Qed.

  (** The same for a whole run in which no file fails: the summaries and the outputs that are possible
      with --fix are those that are possible for a check of the files afterwards. *)
  Theorem C95_runs_agree : forall verbose create verbose' create' inspect rules write_ok write_ok2 f f' es,
    (forall p, In p (spawned es) -> exists content effects,
       f p = Some content /\ file_task dbg sort cf true inspect (write_ok p) rules (Some content) = (effects, Ok tt) /\
       same_directives dbg rules content (file_after content effects) /\ f' p = Some (file_after content effects)) ->
    forall summary stderr,
      run_shows dbg sort cf (mkOptions true create verbose inspect) rules write_ok f es summary stderr <->
      run_shows dbg sort cf (mkOptions false create' verbose' inspect) rules write_ok2 f' es summary stderr.
  Proof.
    intros verbose create verbose' create' inspect rules write_ok write_ok2 f f' es H summary stderr.
    unfold run_shows. cbn [op_fix op_inspect].
    assert (X : map (fun p => task_messages dbg sort cf p true inspect (write_ok p) rules (f p)) (spawned es)
              = map (fun p => task_messages dbg sort cf p false inspect (write_ok2 p) rules (f' p)) (spawned es)).
    { apply map_ext_in. intros p Hp. destruct (H p Hp) as (content & effects & -> & T & SD & ->).
      exact (C95_fixing_says_what_checking_says_afterwards p inspect (write_ok p) (write_ok2 p) rules content effects T SD). }
    rewrite X. split; intros Y; exact Y.
  Qed.
End Agree.

(** A file that is changed, with a syntax error and the tree; one without suggestions. *)
Example C95_case :
  let effects := fst (file_task true insertion_sort default_config true true true RULE_DEFINITIONS (Some C42_template)) in
  snd (file_task true insertion_sort default_config true true true RULE_DEFINITIONS (Some C42_template)) = Ok tt /\
  file_after C42_template effects = txt "{{ a and b }}{{ }}" /\
  same_directives true RULE_DEFINITIONS C42_template (file_after C42_template effects).
Proof.
  intros effects. split; [vm_compute; reflexivity|]. split; [vm_compute; reflexivity|].
  assert (FA : file_after C42_template effects = txt "{{ a and b }}{{ }}") by (vm_compute; reflexivity). rewrite FA. clear.
  assert (B : forall defs a b, match parse_file true a, parse_file true b with
      | Done (t, _), Done (t', _) => disabled_rules (Typed.support_children Kind.LUDTWIG_DIRECTIVE_FILE_IGNORE (root_elem t')) [] = disabled_rules (Typed.support_children Kind.LUDTWIG_DIRECTIVE_FILE_IGNORE (root_elem t)) []
      | _, _ => False end -> same_directives true defs a b).
  { intros defs a b H t errs t' errs' P P'. rewrite P, P' in H. unfold get_file_active_rules. rewrite H. reflexivity. }
  apply B. vm_compute. reflexivity.
Qed.

(** A file with a finding (an unknown filter) that comes without a suggestion. *)
Example C95_case_nothing :
  match parse_file true (txt "{{ a|nope }}") with
  | Done (t, errs) =>
    match run_rules default_config (get_file_active_rules (root_elem t) RULE_DEFINITIONS) t with
    | Done rs => rs <> [] /\ forallb (fun r => match rs_suggestions r with [] => true | _ => false end) rs = true
    | Crashed => False
    end
  | Crashed => False
  end.
Proof. vm_compute. split; [discriminate|reflexivity]. Qed.

(** Without the condition on the directives it is false: in the text of C27 that loses its directive,
    the check finds what --fix did not look for. *)
Theorem C95_always_refuted :
  ~ (forall dbg sort cf p inspect write_ok rules content effects,
       file_task dbg sort cf true inspect write_ok rules (Some content) = (effects, Ok tt) ->
       task_messages dbg sort cf p true inspect write_ok rules (Some content)
       = task_messages dbg sort cf p false inspect write_ok rules (Some (file_after content effects))).
Proof.
  assert (G : forall dbg sort cf p rules content,
    (let (effects, oc) := file_task dbg sort cf true false true rules (Some content) in
     match oc with Ok _ => negb (Nat.eqb (length (fst (fst (task_messages dbg sort cf p true false true rules (Some content)))))
       (length (fst (fst (task_messages dbg sort cf p false false true rules (Some (file_after content effects))))))) | _ => false end) = true ->
    ~ forall effects, file_task dbg sort cf true false true rules (Some content) = (effects, Ok tt) ->
       task_messages dbg sort cf p true false true rules (Some content)
       = task_messages dbg sort cf p false false true rules (Some (file_after content effects))).
  { intros dbg sort cf p rules content H C. destruct (file_task _ _ _ _ _ _ _ _) as [effects [[]|e|]]; [|discriminate H..].
    rewrite (C effects eq_refl), Nat.eqb_refl in H. discriminate H. }
  intros C. refine (G true insertion_sort default_config (txt "a.twig") RULE_DEFINITIONS twice_0 _ _).
  - vm_compute. reflexivity.
  - intros effects. apply C.
Qed.

Print Assumptions C95_fixing_says_what_checking_says_afterwards.
Print Assumptions C95_without_suggestions_fixing_is_checking.
Print Assumptions C95_runs_agree.
Print Assumptions C95_always_refuted.
