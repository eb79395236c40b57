(** Property theorems: the code of a message tells where it comes from: C96. *)
From Coq Require Import NArith String Bool Arith Lia List.
Import ListNotations.
From Verif Require Import Text Kind ParserApi Machine TreeSpec Red Rule Rules Check Process Render Diagnostics DefaultConfig LexerProofs PropReport PropLabels PropOff.
Local Open Scope string_scope.
Local Open Scope list_scope.
Local Notation length := List.length (only parsing).

Definition syntax_error_code : text := txt "SyntaxError".

(** No rule is called like a syntax error or the syntax tree. *)
Lemma rule_names_are_no_codes : forall rl, In rl RULE_DEFINITIONS -> rl_name rl <> syntax_error_code /\ rl_name rl <> txt "SyntaxTree".
Proof.
  assert (B : forallb (fun n => negb (text_eqb n syntax_error_code) && negb (text_eqb n (txt "SyntaxTree"))) (map rl_name RULE_DEFINITIONS) = true)
    by (vm_compute; reflexivity).
  revert B. generalize RULE_DEFINITIONS. intros defs B rl H. rewrite forallb_forall in B. specialize (B (rl_name rl) (in_map rl_name _ _ H)).
  apply andb_true_iff in B as [B1 B2]. apply negb_true_iff in B1, B2.
  split; intros E; rewrite E in *; rewrite (proj2 (text_eqb_eq _ _) eq_refl) in *; discriminate.
Qed.

Lemma error_codes : forall errs ds, error_diagnostics errs = Done ds ->
  length ds = length errs /\ forall d, In d ds -> dg_code d = syntax_error_code /\ dg_severity d = SError.
Proof.
  induction errs as [|e errs IH]; intros ds; cbn [error_diagnostics].
  - intros [= <-]. split; [reflexivity|]. intros d [].
  - destruct (error_diagnostic e) as [d|] eqn:E; [|discriminate]. destruct (error_diagnostics errs) as [ds'|] eqn:E'; [|discriminate].
    intros [= <-]. destruct (IH _ eq_refl) as [L C]. split; [cbn [List.length]; now rewrite L|]. intros x [<-|Hx]; [|auto].
    unfold error_diagnostic in E. destruct (expected_message e); [|discriminate]. injection E as <-. split; reflexivity.
Qed.

(** There are as many messages with the code of a syntax error as syntax errors, they are errors and
    come first, and every other message has the name of one of the rules that were used. *)
Theorem C96_codes_tell_the_source : forall dbg src t errs cf rules results,
  parse_file dbg src = Done (t, errs) -> incl rules RULE_DEFINITIONS -> run_rules cf rules t = Done results ->
  exists syntax found, diagnostics (mkFile src t errs rules) results = Done (syntax ++ found) /\
    length syntax = length errs /\ length found = length results /\
    (forall d, In d syntax -> dg_code d = syntax_error_code /\ dg_severity d = SError) /\
    (forall d, In d found -> dg_code d <> syntax_error_code /\ exists rl, In rl rules /\ dg_code d = rl_name rl).
Proof.
  intros dbg src t errs cf rules results P I R.
  destruct (C82_messages_show_a_place dbg src t errs cf rules results P I R) as (ds & D & _).
  unfold diagnostics in *. cbn [fc_errors] in *. destruct (error_diagnostics errs) as [es|] eqn:E; [|discriminate D].
  exists es, (map result_diagnostic results). split; [reflexivity|]. destruct (error_codes _ _ E) as [L C].
  split; [exact L|]. split; [apply map_length|]. split; [exact C|]. intros d Hd. apply in_map_iff in Hd as (r & <- & Hr).
  destruct (C52_reports_name_their_rule cf rules t results I R) as [N _]. destruct (N r Hr) as (rl & H1 & H2).
  change (dg_code (result_diagnostic r)) with (rs_rule r). split; [|exists rl; auto].
  rewrite H2. exact (proj1 (rule_names_are_no_codes rl (I _ H1))).
Qed.

(** Without the rule of a name, the messages with that code are gone and all others are there. *)
Theorem C96_switching_off_removes_the_messages_with_the_code : forall dbg src t errs cf rules results n ds,
  parse_file dbg src = Done (t, errs) -> incl rules RULE_DEFINITIONS -> run_rules cf rules t = Done results ->
  diagnostics (mkFile src t errs rules) results = Done ds -> n <> syntax_error_code ->
  exists results', 
    let rules' := filter (fun rl => negb (text_eqb (rl_name rl) n)) rules in
    run_rules cf rules' t = Done results' /\
    diagnostics (mkFile src t errs rules') results' = Done (filter (fun d => negb (text_eqb (dg_code d) n)) ds).
Proof.
  intros dbg src t errs cf rules results n ds P I R D NE.
  exists (filter (fun r => negb (text_eqb (rs_rule r) n)) results). cbv zeta.
  split; [exact (C52_switching_off_removes_exactly_its_reports cf rules t results n I R)|].
  unfold diagnostics in *. cbn [fc_errors] in *. destruct (error_diagnostics errs) as [es|] eqn:E; [|discriminate D]. injection D as <-.
  f_equal. rewrite filter_app. destruct (error_codes _ _ E) as [_ C]. f_equal.
  - clear - C NE. induction es as [|d es IH]; [reflexivity|]. cbn [filter]. rewrite (proj1 (C d (or_introl eq_refl))).
    destruct (text_eqb syntax_error_code n) eqn:T; [apply text_eqb_eq in T; congruence|]. cbn [negb]. f_equal. apply IH. intros x Hx. apply C. now right.
  - clear. induction results as [|r l IH]; [reflexivity|]. cbn [filter map]. change (dg_code (result_diagnostic r)) with (rs_rule r).
    destruct (text_eqb (rs_rule r) n); cbn [negb map]; [exact IH|]. f_equal. exact IH.
Qed.

(** A syntax error and a finding; the codes with and without the rule. *)
Example C96_case :
  match parse_file true C42_template with
  | Done (t, errs) =>
    let codes rules := match run_rules default_config rules t with
      | Done rs => match diagnostics (mkFile C42_template t errs rules) rs with Done ds => map dg_code ds | Crashed => [] end
      | Crashed => [] end in
    codes RULE_DEFINITIONS = [syntax_error_code; txt "twig-logic-and"] /\
    codes (filter (fun rl => negb (text_eqb (rl_name rl) (txt "twig-logic-and"))) RULE_DEFINITIONS) = [syntax_error_code]
  | Crashed => False
  end.
Proof. vm_compute. split; reflexivity. Qed.

Print Assumptions C96_codes_tell_the_source.
Print Assumptions C96_switching_off_removes_the_messages_with_the_code.
