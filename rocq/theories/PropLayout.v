(** Property theorems about layout: C50. *)
From Coq Require Import NArith String Bool Arith Lia List.
Import ListNotations.
From Verif Require Import Text Kind Regex Lexer LexerProofs ParserApi Machine Total Layout LexLayout LayoutSim LayoutRoot.
Local Open Scope list_scope.

(** * C50: the indentation of lines does not matter to the parser *)

(** Two templates whose lines differ in nothing but leading blanks and tabs are parsed to
    the same tree up to white space, with the same errors in the same order - or both
    panic in the same place. *)
Theorem C50_indentation_is_irrelevant : forall dbg s s', same_lines s s' ->
  same_parse (parse_src dbg s) (parse_src dbg s').
Proof.
  intros dbg s s' H. destruct (same_lines_tokens s s' H) as (g & g' & r & r' & E & E' & G & G' & F & F' & HR).
  unfold parse_src. pose proof (lexed_blanks _ _ _ (lex_lexed s)) as B. pose proof (lexed_blanks _ _ _ (lex_lexed s')) as B'.
  rewrite E, E' in *. now apply parse_layout.
Qed.

(** The same for token lists: white space at the start may be anything, between tokens it
    may be replaced by other white space that starts with the same kind. *)
Theorem C50_white_space_may_be_replaced : forall dbg g g' r r',
  Forall blank g -> Forall blank g' -> drop_trivia r = r -> drop_trivia r' = r' -> same_but_blanks r r' ->
  (forall t, In t (g ++ r ++ g' ++ r') -> is_trivia (tk_kind t) = true -> blank t) ->
  same_parse (parse_tokens dbg (parse_fuel (g ++ r)) (g ++ r)) (parse_tokens dbg (parse_fuel (g' ++ r')) (g' ++ r')).
Proof.
  intros dbg g g' r r' G G' F F' HR B. apply parse_layout; auto; intros t Ht; apply B;
  rewrite app_assoc; apply in_or_app; auto.
Qed.

(** ** Concrete cases *)
Definition lay_a : text := Eval vm_compute in
  txt "{% block a %}" ++ [10]%N ++ txt "<p :b" ++ [10]%N ++ txt "c=1>{{ x|" ++ [10; 10]%N ++ txt "y }}</q>" ++ [10]%N.
Definition lay_b : text := Eval vm_compute in
  txt "   {% block a %}" ++ [10]%N ++ [9]%N ++ txt "<p :b" ++ [10]%N ++ txt "        c=1>{{ x|" ++ [10; 32; 10; 9]%N ++ txt "y }}</q>" ++ [10; 32]%N.

Example C50_case_lines : same_lines lay_a lay_b /\ lay_a <> lay_b.
Proof. split; [vm_compute; reflexivity|discriminate]. Qed.

(** they have errors, and trees that do differ in white space *)
Example C50_case_parses :
  match parse_src true lay_a, parse_src true lay_b with
  | OK (t, e :: _), OK (t', e' :: _) => bare t = bare t' /\ t <> t' /\ err_start e <> err_start e' /\ err_expected e = err_expected e'
  | _, _ => False
  end.
Proof. vm_compute. repeat split; discriminate. Qed.

(** Blanks elsewhere in a line do matter: [:] and the name behind it. *)
Example C50_blanks_inside_lines_matter :
  match parse_src true (txt "<p :b></p>"), parse_src true (txt "<p : b></p>") with
  | OK (t, []), OK (t', e :: _) => bare t <> bare t'
  | _, _ => False
  end.
Proof. vm_compute. discriminate. Qed.

(** ... and so do line breaks: [not in] must stand on one line. *)
Example C50_line_breaks_matter :
  match parse_src true (txt "{{ a not in b }}"), parse_src true (txt "{{ a not" ++ [10]%N ++ txt "in b }}") with
  | OK (t, []), OK (t', e :: _) => bare t <> bare t'
  | _, _ => False
  end.
Proof. vm_compute. discriminate. Qed.

Print Assumptions C50_indentation_is_irrelevant.
Print Assumptions C50_white_space_may_be_replaced.
