(** C77: whether a well-formed template is accepted depends neither on white space nor on the spelling of the logical
    operators. *)
From Coq Require Import NArith String Bool Arith Lia List.
Import ListNotations.
From Verif Require Import Text Kind Lexer LexerProofs ParserApi Machine AccSpec Respell PropAccept.
Local Open Scope list_scope.

(** A text whose tokens without white space are those of a well-formed template, && and || possibly spelled and
    and or, is accepted as well. *)
Theorem C77_spelling_is_irrelevant : forall dbg src src', template (nontriv (lex src)) ->
  respelled (nontriv (lex src)) (nontriv (lex src')) ->
  (exists t, parse_src dbg src = OK (t, [])) /\ exists t', parse_src dbg src' = OK (t', []).
Proof.
  intros dbg src src' T R. split; apply C61_well_formed_templates_are_accepted; [exact T|exact (template_respelled _ _ T R)].
Qed.

(** * Cases *)
Definition alikeb (t t' : token) : bool :=
  (kind_eqb (tk_kind t) (tk_kind t') && text_eqb (tk_text t) (tk_text t'))
  || (kind_eqb (tk_kind t) TK_DOUBLE_AMPERSAND && text_eqb (tk_text t) (txt "&&") && kind_eqb (tk_kind t') TK_AND && text_eqb (tk_text t') (txt "and"))
  || (kind_eqb (tk_kind t) TK_DOUBLE_PIPE && text_eqb (tk_text t) (txt "||") && kind_eqb (tk_kind t') TK_OR && text_eqb (tk_text t') (txt "or")).
Fixpoint respelledb (l l' : list token) : bool :=
  match l, l' with
  | [], [] => true
  | t :: r, t' :: r' =>
    alikeb t t' && respelledb r r' &&
    match r, r' with
    | u :: _, u' :: _ => negb (mem (tk_kind t) [TK_LESS_THAN; TK_COLON]) || negb (Nat.eqb (tk_end t) (tk_start u)) || Nat.eqb (tk_end t') (tk_start u')
    | _, _ => true
    end
  | _, _ => false
  end.
Lemma alikeb_sound t t' : alikeb t t' = true -> alike t t'.
Proof.
  unfold alikeb, alike. intros H. repeat (apply orb_true_iff in H as [H|H] || (apply andb_true_iff in H as [H ?])).
  - left. split; [now apply kind_eqb_eq|now apply text_eqb_eq].
  - right. left. repeat split; (now apply kind_eqb_eq) || now apply text_eqb_eq.
  - right. right. repeat split; (now apply kind_eqb_eq) || now apply text_eqb_eq.
Qed.
Lemma respelledb_sound l : forall l', respelledb l l' = true -> respelled l l'.
Proof.
  induction l as [|t l IH]; intros [|t' l'] H; try discriminate H; [constructor|]. cbn [respelledb] in H.
  apply andb_true_iff in H as [H G]. apply andb_true_iff in H as [A H]. apply alikeb_sound in A. apply IH in H.
  destruct l as [|u l], l' as [|u' l']; try (inversion H; fail); [now constructor|]. constructor; [exact A| |exact H]. intros I E.
  apply (mem_In (tk_kind t)) in I. rewrite I, E, Nat.eqb_refl in G. now apply Nat.eqb_eq.
Qed.
(** The sample of C61, a page with a loop, strings and a script, with a line break and blanks for every white space. *)
Definition stretched : text :=
  flat_map (fun t => if is_trivia (tk_kind t) then [10; 32; 9; 32]%N else tk_text t) (lex sample).
Example C77_case_white_space : template (nontriv (lex sample)) /\ respelled (nontriv (lex sample)) (nontriv (lex stretched)) /\ stretched <> sample.
Proof.
  split; [exact C61_case|]. split; [apply respelledb_sound; vm_compute; reflexivity|].
  intros E. apply (f_equal (@List.length N)) in E. revert E. vm_compute. discriminate.
Qed.
(** An operator, with more or less white space around. *)
Definition spelled : text := txt "{{a && b}}".
Example C77_case_operator : template (nontriv (lex spelled)) /\ respelled (nontriv (lex spelled)) (nontriv (lex (txt "{{  a and b }}"))).
Proof.
  split; [|apply respelledb_sound; vm_compute; reflexivity]. set (l := nontriv (lex spelled)). vm_compute in l. subst l.
  match goal with |- template [?o; ?a; ?p; ?b; ?c] =>
    assert (V : variable a /\ variable b);
    [split; (split; [split; [discriminate|]; do 2 eexists; split; [reflexivity|]; split; [unfold name_start, letter; lia|constructor]|vm_compute; intuition discriminate])|];
    destruct V as [Va Vb]; apply (content_cons InBody [o; a; p; b; c] []); [|constructor];
    apply item_statement, statement_var; [discriminate|]; exists o, true, [a; p; b], c; split; [reflexivity|]; split; [left; reflexivity|]; split; [|left; reflexivity];
    apply (expr_intro true [a] [p; b] []); [apply (operand_primary [a] []); [now constructor|constructor]| |constructor];
    apply (ops_binary p [b] []); [unfold is; cbn [tk_kind]; apply mem_In; reflexivity| |constructor];
    apply (operand_primary [b] []); [now constructor|constructor]
  end.
Qed.
(** The conditions matter: a blank behind <, and an operator spelled without blanks. *)
Example C77_case_conditions :
  respelledb (nontriv (lex (txt "<p></p>"))) (nontriv (lex (txt "< p></p>"))) = false /\ reported "< p></p>" = true /\
  respelledb (nontriv (lex (txt "{{ 1&&b }}"))) (nontriv (lex (txt "{{ 1andb }}"))) = false /\ reported "{{ 1andb }}" = true.
Proof. vm_compute. repeat split. Qed.

Print Assumptions C77_spelling_is_irrelevant.
