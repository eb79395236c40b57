(** C87: every message has one line. *)
From Coq Require Import NArith Arith String Bool Lia List.
Import ListNotations.
From Verif Require Import Text Kind Lexer LexerProofs ParserApi GrammarTags GrammarHtml Machine TreeSpec Red RedFacts Rule Rules Check Process Render Dump Diagnostics DefaultConfig.
From Verif Require PropParser Relaid ErrLine RuleLine PropDump PropSkel PropLabels.
Local Notation length := List.length (only parsing).
Local Open Scope list_scope.

(** No line break in it. *)
Definition one_line (s : text) : Prop := ~ In 10%N s.
Lemma one_line_spec s : ErrLine.line s = true <-> one_line s.
Proof.
  unfold ErrLine.line, one_line. rewrite forallb_forall. split.
  - intros H I. specialize (H _ I). discriminate H.
  - intros H c I. destruct (N.eqb_spec c 10) as [->|]; [contradiction|reflexivity].
Qed.

Lemma leaf_in k w t : subtree (Leaf k w) t -> In (k, w) (leaves t).
Proof.
  intros S. remember (Leaf k w) as x eqn:E. induction S as [|k' cs c Hc _ IH].
  - subst. now left.
  - cbn [leaves]. apply in_flat_map. exists c. auto.
Qed.
Lemma leaf_text k w : tree_text (Leaf k w) = w.
Proof. unfold tree_text. cbn. now rewrite app_nil_r. Qed.

(** The message of an error, as it is shown to the user and as it is printed below the tree. *)
Theorem C87_messages_are_lines : forall dbg src t errs e, parse_file dbg src = Done (t, errs) -> In e errs ->
  (exists m, expected_message e = Some m /\ one_line m) /\ exists m, error_display e = Some m /\ one_line m.
Proof.
  intros dbg src t errs e H I. unfold parse_file in H. destruct (parse_src dbg src) as [[t' errs']|q|] eqn:P; try discriminate H. injection H as <- <-.
  assert (L : ErrLine.line (err_expected e) = true).
  { refine (ErrLine.parse_errors_lines dbg src _ _ _ P e I). intros k K Tr. apply one_line_spec. apply in_split in K as (a & b & K). exact (proj1 (proj2 (Relaid.token_facts src a k b K)) Tr). }
  pose proof (PropParser.C40_errors_printable _ _ _ _ P e I) as D. unfold error_display in *. destruct (expected_message e) as [m|] eqn:M; [|contradiction D; reflexivity]. clear D.
  assert (Lm : ErrLine.line m = true).
  { unfold expected_message in M. destruct (err_found e) as [k|].
    - destruct (kind_display k) as [d|] eqn:K; [|discriminate M]. injection M as <-. repeat apply ErrLine.line_app; try reflexivity; [exact L|exact (ErrLine.line_display _ _ K)].
    - injection M as <-. repeat apply ErrLine.line_app; try reflexivity. exact L. }
  cbn [option_map]. split; eexists; (split; [reflexivity|]); apply one_line_spec; [exact Lm|].
  repeat apply ErrLine.line_app; try reflexivity; try apply ErrLine.line_nat. exact Lm.
Qed.

(** So below the printed tree there is exactly one line for each error, in their order. *)
Theorem C87_one_line_for_each_error : forall printable dbg src t errs, parse_file dbg src = Done (t, errs) ->
  exists tree messages, debug_tree printable t = Some tree /\ Forall2 (fun e m => error_display e = Some m /\ one_line m) errs messages /\
    debug_parse printable t errs = Some (tree ++ flat_map (fun m => 10%N :: m) messages).
Proof.
  intros printable dbg src t errs P. pose proof (fun e I => proj2 (C87_messages_are_lines dbg src t errs e P I)) as D. clear P.
  destruct (PropDump.debug_tree_lines printable t) as (x & E & _). exists x. unfold debug_parse. rewrite E. clear E.
  enough (Z : exists messages, Forall2 (fun e m => error_display e = Some m /\ one_line m) errs messages /\
    fold_left (fun acc e => match acc, error_display e with Some s, Some m => Some (s ++ [10%N] ++ m) | _, _ => None end) errs (Some x) = Some (x ++ flat_map (fun m => 10%N :: m) messages)).
  { destruct Z as (ms & Z1 & Z2). exists ms. auto. }
  revert x. induction errs as [|e errs IH]; intros x; [exists []; split; [constructor|cbn; now rewrite app_nil_r]|].
  destruct (D e) as (m & M & O); [now left|]. destruct (IH (fun f I => D f (or_intror I)) (x ++ [10%N] ++ m)) as (ms & F & G). exists (m :: ms). split; [constructor; auto|].
  cbn [fold_left flat_map]. rewrite M. etransitivity; [exact G|]. f_equal. cbn [app]. now rewrite <- !app_assoc.
Qed.

(** The headline of every message about a file, syntax error or result of a rule. *)
Theorem C87_headlines_are_lines : forall dbg src t errs cf rules results,
  parse_file dbg src = Done (t, errs) -> incl rules RULE_DEFINITIONS -> run_rules cf rules t = Done results ->
  exists ds, diagnostics (mkFile src t errs rules) results = Done ds /\ Forall (fun d => one_line (dg_msg d)) ds /\ length ds = length errs + length results.
Proof.
  intros dbg src t errs cf rules results P Ir R. destruct (PropLabels.C82_messages_show_a_place dbg src t errs cf rules results P Ir R) as (ds & D & _ & Sv).
  exists ds. split; [exact D|]. split; [|apply (f_equal (@length _)) in Sv; rewrite app_length, repeat_length, !map_length in Sv; exact Sv]. clear Sv.
  unfold diagnostics in D. cbn [fc_errors] in D. destruct (error_diagnostics errs) as [es|] eqn:E; [|discriminate D]. injection D as <-. apply Forall_app. split.
  - clear - E. revert es E. induction errs as [|e errs IH]; intros es E; cbn [error_diagnostics] in E; [injection E as <-; constructor|].
    unfold error_diagnostic in E. destruct (expected_message e); [|discriminate E]. destruct (error_diagnostics errs) as [ds|]; [|discriminate E]. injection E as <-.
    constructor; [|now apply IH]. apply one_line_spec. reflexivity.
  - assert (W : forall e k, within t e -> el_kind e = k -> is_node (el_tree e) = false -> is_trivia k = false -> ErrLine.line (el_text e) = true).
    { intros e k We K L Tr. apply one_line_spec. unfold parse_file in P. destruct (parse_src dbg src) as [[t' errs']|q|] eqn:Q; try discriminate P. injection P as -> ->.
      destruct e as [u off p]. unfold el_kind, el_text in *. cbn [el_tree] in *. destruct u as [k' w|]; [|discriminate L]. cbn in K. subst k'.
      pose proof (PropSkel.within_subtree _ _ _ _ We) as S. pose proof (leaf_in _ _ _ S) as I. apply in_split in I as (a & b & I).
      rewrite (leaf_text k w). exact (proj1 (proj2 (Relaid.leaves_laid _ _ _ _ Q a k w b I)) Tr). }
    assert (G : Forall (RuleLine.good_rule t) rules) by (eapply incl_Forall; [exact Ir|exact (RuleLine.good_definitions t W)]).
    pose proof (RuleLine.good_run t cf rules results G R) as F. apply Forall_map. eapply Forall_impl; [|exact F]. intros r H. apply one_line_spec. exact H.
Qed.

(** Without the text at hand, if no token has 25 bytes or more: what is printed for two files is
    different if the files are. *)
Theorem C87_printed_parse_determines_the_file : forall printable dbg src1 src2 t1 t2 errs1 errs2,
  parse_file dbg src1 = Done (t1, errs1) -> parse_file dbg src2 = Done (t2, errs2) ->
  (forall t k s, t = t1 \/ t = t2 -> In (k, s) (leaves t) -> blen s < 25) ->
  debug_parse printable t1 errs1 = debug_parse printable t2 errs2 -> src1 = src2.
Proof.
  intros printable dbg src1 src2 t1 t2 errs1 errs2 P1 P2 B E.
  assert (D1 : forall e, In e errs1 -> error_display e <> None) by (intros e I; destruct (C87_messages_are_lines _ _ _ _ e P1 I) as (_ & m & -> & _); discriminate).
  assert (D2 : forall e, In e errs2 -> error_display e <> None) by (intros e I; destruct (C87_messages_are_lines _ _ _ _ e P2 I) as (_ & m & -> & _); discriminate).
  destruct (PropDump.debug_parse_lines printable t1 errs1 D1) as (x1 & E1 & L1). destruct (PropDump.debug_parse_lines printable t2 errs2 D2) as (x2 & E2 & L2). rewrite E1, E2 in E. injection E as ->. rewrite L1 in L2.
  destruct (PropDump.lines_inj printable t1 t2 (PropDump.told errs1) (PropDump.told errs2)) as [-> _]; [now apply PropDump.told_short|now apply PropDump.told_short|exact L2| |].
  { right. split; (constructor; [|constructor]); intros k s; apply B; auto. }
  unfold parse_file in P1, P2. destruct (parse_src dbg src1) as [[u1 v1]|q|] eqn:Q1; try discriminate P1. destruct (parse_src dbg src2) as [[u2 v2]|q|] eqn:Q2; try discriminate P2.
  injection P1 as -> ->. injection P2 as -> ->. rewrite <- (proj2 (PropParser.C02_parse_lossless _ _ _ _ Q1)). exact (proj2 (PropParser.C02_parse_lossless _ _ _ _ Q2)).
Qed.

(** Messages that quote names of the file (an element and a block), one with numbers, and one at the
    end of the file; the text has line breaks at all these places. *)
Definition broken : text := txt "{% block"%string ++ [10%N] ++ txt "a %}<p"%string ++ [10%N] ++ txt ">"%string ++ [10%N] ++ txt "</q"%string ++ [10%N] ++
  txt ">{% set x, y"%string ++ [10%N] ++ txt "= 1 %}{% endblock"%string ++ [10%N] ++ txt "b %}{{ (c"%string ++ [10%N].
Example C87_case : exists t errs, parse_file true broken = Done (t, errs) /\
  map expected_message errs = map (fun s => Some (txt s))
    ["expected </p> ending tag but found </"; "expected a total of 2 twig expressions (same amount as declarations) instead of 1 but found %}";
     "expected nothing or same twig block name as opening (a) but found word"; "expected ) but reached end of file"; "expected }} or -}} or ~}} but reached end of file"]%string.
Proof. eexists _, _. split; [vm_compute; reflexivity|]. vm_compute. reflexivity. Qed.
(** A headline that quotes a name; the label of another message shows a line break of the file. *)
Definition noted : text := txt "{{ a|"%string ++ [10%N] ++ txt "foo }}<p id='x"%string ++ [10%N] ++ txt "y'></p><p id='x"%string ++ [10%N] ++ txt "y'></p>"%string.
Example C87_headline_case : exists t results, parse_file true noted = Done (t, []) /\ run_rules DefaultConfig.default_config RULE_DEFINITIONS t = Done results /\
  existsb (fun r => text_eqb (rs_msg r) (txt "unknown twig filter 'foo'"%string)) results = true /\
  existsb (fun r => match rs_primary r with Some n => existsb (N.eqb 10) (nt_msg n) | None => false end) results = true.
Proof. eexists _, _. split; [vm_compute; reflexivity|]. split; [vm_compute; reflexivity|]. split; vm_compute; reflexivity. Qed.
(** Two files with the same tokens but for one, both printed differently. *)
Example C87_different_files : exists t1 t2 e1 e2, parse_file true (txt "{{ (a }}"%string) = Done (t1, e1) /\ parse_file true (txt "{{ (b }}"%string) = Done (t2, e2) /\
  e1 = e2 /\ e1 <> [] /\ (forall t k s, t = t1 \/ t = t2 -> In (k, s) (leaves t) -> blen s < 25).
Proof.
  eexists _, _, _, _. split; [vm_compute; reflexivity|]. split; [vm_compute; reflexivity|]. split; [reflexivity|]. split; [discriminate|].
  intros t k s [-> | ->] I; cbn in I; repeat destruct I as [I|I]; try contradiction; injection I as <- <-; vm_compute; lia.
Qed.

Print Assumptions C87_messages_are_lines.
Print Assumptions C87_one_line_for_each_error.
Print Assumptions C87_headlines_are_lines.
Print Assumptions C87_headline_case.
Print Assumptions C87_printed_parse_determines_the_file.
Print Assumptions C87_case.
Print Assumptions C87_different_files.
