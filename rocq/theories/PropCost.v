(** C80: the work of the parser and the size of its result grow at most linearly with the file. *)
From Coq Require Import NArith String Bool Arith Lia List.
Import ListNotations.
From Verif Require Import Text Kind Lexer LexerProofs ParserApi GrammarHtml Machine Red Process Cost.
Local Notation length := List.length (only parsing).
Local Open Scope list_scope.

(** Counting ([counting]) runs the machine of the parser unchanged and adds one for every operation:
    a look at the next tokens, taking tokens, opening, closing or wrapping a node, a message, asking for
    the position.  [parse_file] runs [root] on that machine. *)
Definition operations (dbg : bool) (src : text) (n : nat) : Prop :=
  exists a s, run (counting (cstep dbg)) (parse_fuel (lex src)) root (c_init (lex src), 0) = OK (a, (s, n)).

(** There is no backtracking and no loop without progress: at most 150 operations per token and 35
    more, so at most 150 per character and 35 more. *)
Theorem C80_operations_are_linear : forall dbg src t errs, parse_file dbg src = Done (t, errs) ->
  exists n, operations dbg src n /\ n <= 150 * length (lex src) + 35 /\ n <= 150 * length src + 35.
Proof.
  intros dbg src t errs H. unfold parse_file in H. destruct (parse_src dbg src) as [[t' errs']|q|] eqn:E; try discriminate H.
  destruct (parse_cost _ _ _ _ E) as (n & a & s & R & _ & L). exists n. split; [exists a, s; exact R|]. split; [exact L|].
  pose proof (lexed_length _ _ _ (lex_lexed src)). lia.
Qed.

(** The nodes of the tree and the messages together. *)
Theorem C80_result_is_linear : forall dbg src t errs, parse_file dbg src = Done (t, errs) ->
  nodes t + length errs <= 150 * length (lex src) + 36 /\ nodes t + length errs <= 150 * length src + 36.
Proof.
  intros dbg src t errs H. unfold parse_file in H. destruct (parse_src dbg src) as [[t' errs']|q|] eqn:E; try discriminate H.
  injection H as <- <-. pose proof (tree_cost _ _ _ _ E) as L. split; [exact L|]. pose proof (lexed_length _ _ _ (lex_lexed src)). lia.
Qed.

(** Deeply nested, partly broken. *)
Definition broken : text := txt "{% if a %}<p {% for x in [[[1, 2], {{ ( %}>{{ a|b(((c))) is same as }}</p>{% endfor"%string.
Example C80_case : exists t errs, parse_file true broken = Done (t, errs) /\ length (lex broken) = 58 /\ nodes t = 59 /\ length errs = 18.
Proof. eexists _, _. split; [vm_compute; reflexivity|]. vm_compute. auto. Qed.
Example C80_case_operations : operations true broken 706.
Proof. eexists _, _. vm_compute. reflexivity. Qed.

Print Assumptions C80_operations_are_linear.
Print Assumptions C80_result_is_linear.
Print Assumptions C80_case.
Print Assumptions C80_case_operations.
