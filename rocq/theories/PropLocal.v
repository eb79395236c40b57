(** * C83: what is said about the beginning of a file does not depend on what follows

    Property theorems; the machinery is in Local.v. *)
From Coq Require Import NArith String Bool Arith Lia List.
Import ListNotations.
From Verif Require Import Text Kind Regex Lexer LexerProofs ParserApi Machine.
From Verif Require Local.
Local Notation length := List.length (only parsing).
Local Open Scope list_scope.

(** The syntax errors that start before the place [p]. *)
Definition errors_before (p : nat) (errs : list perror) : list perror := filter (fun e => err_start e <? p) errs.
(** Neither white space nor the end of a line. *)
Definition significant (t : token) : Prop := tk_kind t <> TK_WHITESPACE /\ tk_kind t <> TK_LINE_BREAK.
Lemma significant_nontriv c l : significant c -> nontriv (c :: l) <> [].
Proof. intros [H1 H2]. unfold nontriv. cbn [filter]. destruct (is_trivia (tk_kind c)) eqn:E; [|discriminate]. exfalso. destruct (tk_kind c); try discriminate E; congruence. Qed.

(** Two files that begin with the same tokens [pre], [c]: the errors before [c] are the same,
    whatever comes after [c] (in either file, also nothing). *)
Theorem C83_errors_of_a_beginning : forall dbg src1 src2 pre c post1 post2 t1 t2 errs1 errs2,
  lex src1 = pre ++ c :: post1 -> lex src2 = pre ++ c :: post2 -> significant c ->
  parse_src dbg src1 = OK (t1, errs1) -> parse_src dbg src2 = OK (t2, errs2) ->
  errors_before (tk_start c) errs1 = errors_before (tk_start c) errs2.
Proof.
  intros dbg src1 src2 pre c post1 post2 t1 t2 errs1 errs2 L1 L2 S P1 P2.
  exact (Local.parse_errors_local dbg pre c [] post1 post2 src1 src2 t1 t2 errs1 errs2 L1 L2 (significant_nontriv c [] S) P1 P2).
Qed.

(** In particular a beginning without errors has none, whatever follows. *)
Theorem C83_clean_beginning : forall dbg src1 src2 pre c post1 post2 t1 t2 errs1 errs2,
  lex src1 = pre ++ c :: post1 -> lex src2 = pre ++ c :: post2 -> significant c ->
  parse_src dbg src1 = OK (t1, errs1) -> parse_src dbg src2 = OK (t2, errs2) ->
  errs1 = [] -> forall e, In e errs2 -> tk_start c <= err_start e.
Proof.
  intros dbg src1 src2 pre c post1 post2 t1 t2 errs1 errs2 L1 L2 S P1 P2 -> e I.
  pose proof (C83_errors_of_a_beginning _ _ _ _ _ _ _ _ _ _ _ L1 L2 S P1 P2) as H. cbn [errors_before filter] in H.
  destruct (le_lt_dec (tk_start c) (err_start e)) as [Le|Lt]; [exact Le|exfalso].
  assert (J : In e (errors_before (tk_start c) errs2)) by (apply filter_In; split; [exact I|now apply Nat.ltb_lt]).
  rewrite <- H in J. exact J.
Qed.

(** A beginning with three errors, the last common token is the [>] at 27. *)
Definition case_errs (src : text) : list (nat * text) :=
  match parse_src true src with OK (_, errs) => map (fun e => (err_start e, err_expected e)) errs | _ => [] end.
Definition case_tokens (src : text) : list (kind * nat * text) := map (fun t => (tk_kind t, tk_start t, tk_text t)) (lex src).
Definition case_beginning := txt "{{ }}<p>{% set %}{{ a| }}<b>".
Example C83_case_common :
  firstn 20 (case_tokens (case_beginning ++ txt "</b>{% endset %}</p>")) = firstn 20 (case_tokens (case_beginning ++ txt "{% if")) /\
  nth_error (case_tokens (case_beginning ++ txt "{% if")) 19 = Some (TK_GREATER_THAN, 27, txt ">").
Proof. vm_compute. auto. Qed.
Example C83_case_first : case_errs (case_beginning ++ txt "</b>{% endset %}</p>") =
  [(3, txt "twig expression"); (15, txt "twig variable name"); (23, txt "twig filter")].
Proof. vm_compute. reflexivity. Qed.
Example C83_case_second : firstn 3 (case_errs (case_beginning ++ txt "{% if")) =
  [(3, txt "twig expression"); (15, txt "twig variable name"); (23, txt "twig filter")] /\
  map fst (skipn 3 (case_errs (case_beginning ++ txt "{% if"))) = [31; 31; 31; 31; 31; 31; 31; 31; 31; 31].
Proof. vm_compute. auto. Qed.
(** The errors about [c] itself can depend on what follows: here [c] is the [</] at 3. *)
Example C83_case_sharp : map fst (case_errs (txt "<p></p>")) = [] /\ map fst (case_errs (txt "<p></b>")) = [3].
Proof. vm_compute. auto. Qed.

Print Assumptions C83_errors_of_a_beginning.
Print Assumptions C83_clean_beginning.
