(** Property theorems about names: C74. *)
From Coq Require Import NArith String Bool Arith Lia List.
Import ListNotations.
From Verif Require Import Text Kind Regex Lexer LexerProofs ParserApi Machine Total Rename RenameSim RenameGrammar RenameRoot.
Local Open Scope list_scope.

(** * C74: renaming things consistently keeps the template *)

(** Two templates that differ in the words they use only - and use equal words where the other
    one does - are parsed to the same tree with the words replaced, with the same errors at the
    same tokens. *)
Theorem C74_renaming_keeps_the_template : forall dbg src src', renaming (lex src) (lex src') ->
  renamed_parse (lex src) (lex src') (parse_src dbg src) (parse_src dbg src').
Proof.
  intros dbg src src' R. unfold parse_src. destruct (lex src) as [|t l] eqn:E.
  - destruct R as [R _]. inversion R. destruct dbg; vm_compute; repeat constructor.
  - rewrite <- E. apply parse_renamed; rewrite E; [discriminate|exact R].
Qed.

(** In particular the one is accepted when the other one is. *)
Theorem C74_renaming_keeps_acceptance : forall dbg src src', renaming (lex src) (lex src') ->
  (exists t, parse_src dbg src = OK (t, [])) <-> (exists t, parse_src dbg src' = OK (t, [])).
Proof.
  intros dbg src src' R. pose proof (C74_renaming_keeps_the_template dbg src src' R) as P. split; intros (t & E); rewrite E in P; cbn [renamed_parse] in P.
  - destruct (parse_src dbg src') as [[t' e]| |]; try contradiction. destruct P as [_ P]. inversion P; subst. now exists t'.
  - destruct (parse_src dbg src) as [[t' e]| |]; try contradiction. destruct P as [_ P]. inversion P; subst. now exists t'.
Qed.

(** ** Deciding whether two templates are renamings of each other *)
Definition sortb (w w' : text) : bool :=
  text_eqb w w' ||
  (negb (text_eqb w []) && negb (text_eqb w' []) && eqb (twig_word w) (twig_word w') && eqb (element_word w) (element_word w') &&
   eqb (attribute_word w) (attribute_word w') && eqb (attribute_word (58%N :: w)) (attribute_word (58%N :: w')) &&
   negb (existsb (text_eqb (map lower w)) special_elements) && negb (existsb (text_eqb (map lower w')) special_elements)).
Definition renamingb (T T' : list token) : bool :=
  Nat.eqb (List.length T) (List.length T') &&
  forallb (fun p => kind_eqb (tk_kind (fst p)) (tk_kind (snd p)) && sortb (tk_text (fst p)) (tk_text (snd p))) (combine T T') &&
  forallb (fun p => forallb (fun q => eqb (text_eqb (tk_text (fst p)) (tk_text (fst q))) (text_eqb (tk_text (snd p)) (tk_text (snd q)))) (combine T T')) (combine T T').
Lemma sortb_ok w w' : sortb w w' = true -> same_sort w w'.
Proof.
  unfold sortb, same_sort. intros H. apply orb_true_iff in H as [H|H]; [left; now apply text_eqb_eq|right].
  rewrite !andb_true_iff, !negb_true_iff in H. destruct H as [[[[[[[A B] C] D] E] F] G] K]. apply eqb_prop in C, D, E, F.
  assert (X : forall v, existsb (text_eqb (map lower v)) special_elements = false -> ~ special_element v).
  { intros v V I. assert (Y : existsb (text_eqb (map lower v)) special_elements = true); [|rewrite Y in V; discriminate].
    apply existsb_exists. exists (map lower v). split; [exact I|]. now apply text_eqb_eq. }
  split; [intros ->; rewrite (proj2 (text_eqb_eq _ _) eq_refl) in A; discriminate|].
  split; [intros ->; rewrite (proj2 (text_eqb_eq _ _) eq_refl) in B; discriminate|]. auto 10.
Qed.
Lemma renamingb_ok T T' : renamingb T T' = true -> renaming T T'.
Proof.
  unfold renamingb. rewrite !andb_true_iff. intros [[L A] B]. apply Nat.eqb_eq in L. split.
  - clear B. revert T' L A. induction T as [|t T IH]; intros [|t' T'] L A; cbn in L; try discriminate; constructor.
    + cbn [combine forallb fst snd] in A. apply andb_true_iff in A as [A _]. apply andb_true_iff in A as [A1 A2].
      apply kind_eqb_eq in A1. split; [exact A1|now apply sortb_ok].
    + cbn [combine forallb] in A. apply andb_true_iff in A as [_ A]. apply IH; [lia|exact A].
  - intros t1 t1' t2 t2' H1 H2. rewrite forallb_forall in B. specialize (B _ H1). rewrite forallb_forall in B. specialize (B _ H2).
    cbn [fst snd] in B. apply eqb_prop in B. rewrite <- !text_eqb_eq, B. reflexivity.
Qed.

(** ** Concrete cases *)
(** a template with names of all sorts and two errors, both mention a name *)
Definition old_names : text := Eval vm_compute in
  txt "{% block my_block %}<my-box :head=""a"" @click=""b"">{{ user.name|upper(x) }}</my-box>{% endblock other %}<in-side>{% macro f(x) %}{{ x }}{% endmacro f %}{{ x + }}".
Definition new_names : text := Eval vm_compute in
  txt "{% block page_head %}<app-panel :label=""c"" @input=""d"">{{ account.mail|lower(y) }}</app-panel>{% endblock wrong %}<out-side>{% macro g(y) %}{{ y }}{% endmacro g %}{{ y + }}".
Example C74_case_renaming : renaming (lex old_names) (lex new_names).
Proof. apply renamingb_ok. vm_compute. reflexivity. Qed.
Definition messages (x : res (tree * list perror)) : list text := match x with OK (_, es) => map err_expected es | _ => [] end.
Example C74_case_messages :
  messages (parse_src true old_names) = [txt "nothing or same twig block name as opening (my_block)"; txt "</in-side> ending tag"] /\
  messages (parse_src true new_names) = [txt "nothing or same twig block name as opening (page_head)"; txt "</out-side> ending tag"].
Proof. vm_compute. split; reflexivity. Qed.

(** Each condition is needed. A name that is renamed in one place only: *)
Example C74_consistency_matters :
  messages (parse_src true (txt "{% block a %}{% endblock a %}")) = [] /\
  messages (parse_src true (txt "{% block b %}{% endblock a %}")) = [txt "nothing or same twig block name as opening (b)"].
Proof. vm_compute. split; reflexivity. Qed.
(** two names that become one: *)
Example C74_distinctness_matters :
  messages (parse_src true (txt "<a-a><b-b></a-a>")) <> [] /\ messages (parse_src true (txt "<a-a><a-a></a-a>")) <> [] /\
  messages (parse_src true (txt "<a-a><b-b></a-a></b-b>")) <> messages (parse_src true (txt "<a-a><a-a></a-a></a-a>")).
Proof. vm_compute. repeat split; discriminate. Qed.
(** an element that becomes one without content: *)
Example C74_special_elements_matter :
  messages (parse_src true (txt "<box></box>")) = [] /\ messages (parse_src true (txt "<br></br>")) <> [].
Proof. vm_compute. split; [reflexivity|discriminate]. Qed.
(** a name with a minus sign in an expression: *)
Example C74_sorts_matter :
  List.map tk_kind (lex (txt "{{ a.b }}")) = List.map tk_kind (lex (txt "{{ a.b-c }}")) /\
  messages (parse_src true (txt "{{ a.b }}")) = [] /\ messages (parse_src true (txt "{{ a.b-c }}")) <> [].
Proof. vm_compute. repeat split. discriminate. Qed.

Print Assumptions C74_renaming_keeps_the_template.
Print Assumptions C74_renaming_keeps_acceptance.
