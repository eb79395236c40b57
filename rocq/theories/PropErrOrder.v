(** C81: syntax errors are listed in the order of the text. *)
From Coq Require Import NArith String Bool Arith Lia List Sorted.
Import ListNotations.
From Verif Require Import Text Kind Lexer LexerProofs ParserApi GrammarHtml Machine Red Process ErrOrder.
Local Notation length := List.length (only parsing).
Local Open Scope list_scope.

(** The place of an error is the byte its range starts at (the token it is about, C06). *)
Theorem C81_errors_follow_the_text : forall dbg src t errs i j a b, parse_file dbg src = Done (t, errs) ->
  i < j -> nth_error errs i = Some a -> nth_error errs j = Some b -> err_start a <= err_start b.
Proof.
  intros dbg src t errs i j a b H. unfold parse_file in H. destruct (parse_src dbg src) as [[t' errs']|q|] eqn:E; try discriminate H.
  injection H as <- <-. pose proof (parse_errors_sorted _ _ _ _ E) as S. clear E. revert i j. induction S as [|e l S IH F]; intros i j L A B; [destruct i; discriminate A|].
  destruct j as [|j]; [lia|]. cbn [nth_error] in B. destruct i as [|i]; cbn [nth_error] in A.
  - injection A as <-. rewrite Forall_forall in F. apply F. eapply nth_error_In, B.
  - apply (IH i j); [lia|exact A|exact B].
Qed.

(** All three kinds of errors: about the next token, about a token just read (the wrong name and the
    quote), at the end of the file. *)
Definition wrong : text := txt "{% block a %}<p x=y' {{ 1 + }}></q>{% endblock b %}{{ (c"%string.
Example C81_case : exists t errs, parse_file true wrong = Done (t, errs) /\ map err_start errs = [19; 31; 47; 55; 55].
Proof. eexists _, _. split; [vm_compute; reflexivity|]. vm_compute. reflexivity. Qed.

Print Assumptions C81_errors_follow_the_text.
Print Assumptions C81_case.
