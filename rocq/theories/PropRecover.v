(** C79: the parser skips nothing silently. *)
From Coq Require Import NArith String Bool Arith Lia List.
Import ListNotations.
From Verif Require Import Text Kind Lexer LexerProofs ParserApi GrammarHtml Machine Red RedFacts Process Recover.
Local Open Scope list_scope.

(** The full claim is about all text the parser cannot use.  It is false of the code for characters
    no token starts with: [parse_many] (grammar.rs:46-47) drops them without a message. *)
Theorem C79_unknown_characters_are_reported_refuted : exists src t o s, parse_file true src = Done (t, []) /\
  at_byte t o (Leaf TK_UNKNOWN s) /\ src = txt "{{ [$ 1] }}"%string.
Proof.
  eexists _, _, 4, (txt "$"%string). split; [|split; [|reflexivity]]; [vm_compute; reflexivity|].
  apply (at_below ROOT [] _ [] 4). apply (at_below TWIG_VAR [Leaf TK_OPEN_CURLY_CURLY (txt "{{"%string)] _ _ 2). apply (at_below TWIG_EXPRESSION [] _ [] 2).
  apply (at_below TWIG_LITERAL_ARRAY [Leaf TK_WHITESPACE (txt " "%string); Leaf TK_OPEN_SQUARE (txt "["%string)] _ _ 0). apply (at_below TWIG_LITERAL_ARRAY_INNER [] _ _ 0). constructor.
Qed.

(** What is proved is about error nodes, where everything else ends up that is skipped.
    Every error node of the tree, with the byte it starts at: it holds tokens only.  Either none of
    them opens a tag, an output, a comment, a doctype or an element, and there is a message about
    the first of them or about what ends where the node starts.  Or it is the start of an unknown
    tag, and there is a message about the next token (or the last token of the file). *)
Theorem C79_nothing_is_skipped_silently_partial : forall dbg src t errs o cs, parse_file dbg src = Done (t, errs) ->
  at_byte t o (Node ERROR cs) -> skipped o cs errs \/ unknown_tag (lex src) o cs errs.
Proof.
  intros dbg src t errs o cs H A. unfold parse_file in H. destruct (parse_src dbg src) as [[t' errs']|q|] eqn:E; try discriminate H.
  injection H as <- <-. exact (recover_tree _ _ _ _ E _ _ A).
Qed.

(** Without a message nothing is skipped. *)
Theorem C79_no_message_no_skipping_partial : forall dbg src t o cs, parse_file dbg src = Done (t, []) -> ~ at_byte t o (Node ERROR cs).
Proof.
  intros dbg src t o cs H A. destruct (C79_nothing_is_skipped_silently_partial _ _ _ _ _ _ H A) as [(_ & e & [] & _)|(w & k & s & _ & _ & _ & e & [] & _)].
Qed.

(** * A case with every kind of skipped text *)
Lemma spot_at_byte : forall t p o cs, In (o, cs) (spots p t) -> exists d, o = p + d /\ at_byte t d (Node ERROR cs).
Proof.
  induction t as [k s|k l IH] using tree_induction; intros p o cs H; [contradiction|]. rewrite spots_node in H. apply in_app_iff in H as [H|H].
  - destruct (kind_eqb k ERROR) eqn:K; [|contradiction]. apply kind_eqb_eq in K. subst k. destruct H as [H|[]]. injection H as <- <-. exists 0. split; [lia|constructor].
  - assert (G : forall post pre, l = pre ++ post -> In (o, cs) (spots_in (p + blen (texts_of pre)) post) -> exists d, o = p + d /\ at_byte (Node k l) d (Node ERROR cs)).
    { induction post as [|c post IHp]; intros pre El G; [contradiction|]. cbn [spots_in] in G. apply in_app_iff in G as [G|G].
      - rewrite Forall_forall in IH. destruct (IH c ltac:(rewrite El; apply in_elt) _ _ _ G) as (d & -> & D). exists (blen (texts_of pre) + d). split; [lia|]. rewrite El. now constructor.
      - apply (IHp (pre ++ [c])); [now rewrite <- app_assoc|]. rewrite texts_app, blen_app. unfold texts_of at 2. cbn [flat_map]. rewrite app_nil_r, Nat.add_assoc. exact G. }
    apply (G l []); [reflexivity|]. cbn. now rewrite Nat.add_0_r.
Qed.
Definition broken : text := txt "{{ a b c }}{% foo %}<a b=c"">{% block x %}{% endblock y  z %}</a>{%"%string.
Example C79_case : exists t errs, parse_file true broken = Done (t, errs) /\
  map (fun e => (err_start e, err_end e)) errs = [(5, 6); (14, 17); (26, 27); (53, 54); (64, 66)] /\
  at_byte t 4 (Node ERROR [Leaf TK_WHITESPACE (txt " "); Leaf TK_WORD (txt "b"); Leaf TK_WHITESPACE (txt " "); Leaf TK_WORD (txt "c")]) /\
  at_byte t 11 (Node ERROR [Leaf TK_CURLY_PERCENT (txt "{%")]) /\
  at_byte t 26 (Node ERROR [Leaf TK_DOUBLE_QUOTES (txt """")]) /\
  at_byte t 54 (Node ERROR [Leaf TK_WHITESPACE (txt "  "); Leaf TK_WORD (txt "z")]) /\
  at_byte t 64 (Node ERROR [Leaf TK_CURLY_PERCENT (txt "{%")]).
Proof.
  assert (A : forall t o cs, In (o, cs) (spots 0 t) -> at_byte t o (Node ERROR cs)).
  { intros t o cs H. destruct (spot_at_byte _ _ _ _ H) as (d & -> & D). exact D. }
  assert (R : exists t errs, parse_file true broken = Done (t, errs) /\ map (fun e => (err_start e, err_end e)) errs = [(5, 6); (14, 17); (26, 27); (53, 54); (64, 66)] /\
    spots 0 t = [(4, [Leaf TK_WHITESPACE (txt " "); Leaf TK_WORD (txt "b"); Leaf TK_WHITESPACE (txt " "); Leaf TK_WORD (txt "c")]);
      (11, [Leaf TK_CURLY_PERCENT (txt "{%")]); (26, [Leaf TK_DOUBLE_QUOTES (txt """")]); (54, [Leaf TK_WHITESPACE (txt "  "); Leaf TK_WORD (txt "z")]); (64, [Leaf TK_CURLY_PERCENT (txt "{%")])]).
  { eexists. eexists. split; [vm_compute; reflexivity|]. split; vm_compute; reflexivity. }
  destruct R as (t & errs & R1 & R2 & R3). exists t, errs. split; [exact R1|]. split; [exact R2|].
  repeat split; apply A; rewrite R3; cbn [In]; auto 10.
Qed.

Print Assumptions C79_nothing_is_skipped_silently_partial.
Print Assumptions C79_no_message_no_skipping_partial.
Print Assumptions C79_unknown_characters_are_reported_refuted.
