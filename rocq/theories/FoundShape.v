(** The parts of the nodes of an error-free template, read off the content models of [Schema.v]. *)
From Coq Require Import NArith String Bool Arith Lia List.
Import ListNotations.
From Verif Require Import Text Kind Lexer LexerProofs ParserApi Machine TreeSpec.
From Verif Require Schema PropShape.
From Verif Require Import Red Typed Rule Rules Check RedFacts WalkSpec PropRun PropOff Found.
Local Notation length := List.length (only parsing).
Local Open Scope list_scope.

(** * Names *)

(** [w] is the word of the name an operand begins with: [w], or [w(...)] after a pipe. *)
Definition name_word (o w : elem) : Prop :=
  exists n rest, parts o = n :: rest /\ a_node TWIG_LITERAL_NAME n /\ parts n = [w].
(** [w] is the name of the function that is called. *)
Definition call_word (o w : elem) : Prop :=
  exists c f args, parts o = [c] /\ a_node TWIG_FUNCTION_CALL c /\ parts c = [f; args] /\ name_word f w.
Definition used_name (o w : elem) : Prop := name_word o w \/ call_word o w.

Lemma name_word_up o w : name_word o w -> exists n, parent w = Some n /\ parent n = Some o.
Proof.
  intros (n & rest & E & _ & E2). exists n. split; apply part_parent.
  - rewrite E2. now left.
  - rewrite E. now left.
Qed.
Lemma name_word_inj o o' w : name_word o w -> name_word o' w -> o = o'.
Proof. intros H H'. apply name_word_up in H as (n & E1 & E2), H' as (n' & E1' & E2'). congruence. Qed.
Lemma call_word_up o w : call_word o w -> exists f c, name_word f w /\ parent f = Some c /\ a_node TWIG_FUNCTION_CALL c /\ parent c = Some o.
Proof.
  intros (c & f & args & E1 & H1 & E2 & H2). exists f, c. split; [exact H2|]. split; [|split; [exact H1|]]; apply part_parent.
  - rewrite E2. now left.
  - rewrite E1. now left.
Qed.
(** The node around an operand with a used name is determined by the name. *)
Lemma used_name_owner o o' p p' w : used_name o w -> used_name o' w -> parent o = Some p -> parent o' = Some p' ->
  ~ a_node TWIG_FUNCTION_CALL p -> ~ a_node TWIG_FUNCTION_CALL p' -> p = p' /\ o = o'.
Proof.
  intros [H|H] [H'|H'] Ep Ep' Np Np'.
  - assert (o = o') as <- by (eapply name_word_inj; eauto). split; congruence.
  - apply call_word_up in H' as (f & c & H1 & H2 & H3 & H4). assert (o = f) as <- by (eapply name_word_inj; eauto). congruence.
  - apply call_word_up in H as (f & c & H1 & H2 & H3 & H4). assert (o' = f) as <- by (eapply name_word_inj; eauto). congruence.
  - apply call_word_up in H as (f & c & H1 & H2 & H3 & H4), H' as (f' & c' & H1' & H2' & H3' & H4').
    assert (f = f') as <- by (eapply name_word_inj; eauto). assert (c = c') as <- by congruence.
    assert (o = o') as <- by congruence. split; congruence.
Qed.
Lemma name_word_fun o w w' : name_word o w -> name_word o w' -> w = w'.
Proof. intros (n & r & E & _ & E2) (n' & r' & E' & _ & E2'). rewrite E in E'. injection E' as -> _. rewrite E2 in E2'. now injection E2'. Qed.
Lemma used_name_fun o w w' : used_name o w -> used_name o w' -> w = w'.
Proof.
  intros [H|H] [H'|H'].
  - eapply name_word_fun; eauto.
  - destruct H as (n & r & E & H & _), H' as (c & f & a & E' & H' & _). rewrite E in E'. injection E' as -> _.
    discriminate (a_node_inj _ _ _ H H').
  - destruct H as (c & f & a & E' & Hc & _), H' as (n & r & E & Hn & _). rewrite E in E'. injection E' as -> _.
    discriminate (a_node_inj _ _ _ Hn Hc).
  - destruct H as (c & f & a & E & _ & E2 & H), H' as (c' & f' & a' & E' & _ & E2' & H'). rewrite E in E'. injection E' as ->.
    rewrite E2 in E2'. injection E2' as -> _. eapply name_word_fun; eauto.
Qed.

Ltac sem_inv := repeat match goal with
  | H : Schema.sem (Schema.Seq _ _) _ |- _ =>
    let x := fresh "x" in let y := fresh "y" in destruct H as (x & y & -> & ? & ?)
  | H : Schema.sem (Schema.One _) _ |- _ => let s := fresh "s" in destruct H as (s & -> & H)
  | H : Schema.sem (Schema.Alt _ _) _ |- _ => destruct H as [H|H]
  | H : Schema.sem Schema.Eps _ |- _ => cbn [Schema.sem] in H; subst
  | H : In _ [_] |- _ => destruct H as [<-|[]]
  end.
Ltac parts_inv := repeat match goal with
  | H : Forall2 is_sym (_ :: _) _ |- _ => inversion H; clear H; subst
  | H : Forall2 is_sym [] _ |- _ => inversion H; clear H; subst
  end; cbn [is_sym] in *.
Ltac models := cbv delta [Schema.tag Schema.simple_tag Schema.wrapped Schema.include_options Schema.directive Schema.expr Schema.name
  Schema.string_ Schema.comma Schema.sep Schema.commas Schema.list1 Schema.between_quotes Schema.block_open Schema.block_close
  Schema.var_open Schema.var_close Schema.comment_open Schema.comment_close Schema.opt Schema.tk Schema.nd] beta in *; cbn [map] in *.

Section Shapes.
  Context (dbg : bool) (src : text) (t : tree) (HP : parse_src dbg src = OK (t, [])).

  Lemma node_wf k e : In e (elements t) -> a_node k e -> k <> TWIG_ARROW_FUNCTION -> Schema.well_formed k (children (el_tree e)).
  Proof.
    intros He (cs & E) Hk. rewrite E. cbn [children]. apply (PropShape.wf_node dbg src t HP k cs Hk). rewrite <- E. now apply element_subtree.
  Qed.
  Lemma node_sem k e m : In e (elements t) -> a_node k e -> k <> TWIG_ARROW_FUNCTION -> Schema.schema k = Some m ->
    Schema.sem m (Schema.content (children (el_tree e))).
  Proof. intros He Hk Hn E. destruct (node_wf k e He Hk Hn) as [C _]. unfold Schema.conforms in C. now rewrite E in C. Qed.

  Lemma name_shape n : In n (elements t) -> a_node TWIG_LITERAL_NAME n -> exists w, parts n = [w] /\ a_token TK_WORD w.
  Proof.
    intros He Hk. pose proof (parts_content n) as P. pose proof (node_sem _ _ _ He Hk ltac:(discriminate) eq_refl) as C. models.
    revert P C. generalize (Schema.content (children (el_tree n))). intros l P C. sem_inv. parts_inv. eauto.
  Qed.
  Lemma operand_shape o : In o (elements t) -> a_node TWIG_OPERAND o ->
    (exists n k, parts o = [n] /\ a_node k n /\ In k Schema.operands) \/
    (exists n args, parts o = [n; args] /\ a_node TWIG_LITERAL_NAME n /\ a_node TWIG_ARGUMENTS args).
  Proof.
    intros He Hk. pose proof (parts_content o) as P. pose proof (node_sem _ _ _ He Hk ltac:(discriminate) eq_refl) as C.
    revert P C. generalize (Schema.content (children (el_tree o))). intros l P C. destruct C as [C|C].
    - left. destruct C as (s & -> & C). apply in_map_iff in C as (k & <- & C). parts_inv. eauto.
    - right. models. sem_inv. cbn [app] in P. parts_inv. eauto.
  Qed.
  Lemma expression_shape o : In o (elements t) -> a_node TWIG_EXPRESSION o ->
    exists n k, parts o = [n] /\ a_node k n /\ In k Schema.expressions.
  Proof.
    intros He Hk. pose proof (parts_content o) as P. pose proof (node_sem _ _ _ He Hk ltac:(discriminate) eq_refl) as C.
    revert P C. generalize (Schema.content (children (el_tree o))). intros l P C.
    destruct C as (s & -> & C). apply in_map_iff in C as (k & <- & C). parts_inv. eauto.
  Qed.
  Lemma call_shape o : In o (elements t) -> a_node TWIG_FUNCTION_CALL o ->
    exists f args, parts o = [f; args] /\ a_node TWIG_OPERAND f /\ a_node TWIG_ARGUMENTS args.
  Proof.
    intros He Hk. pose proof (parts_content o) as P. pose proof (node_sem _ _ _ He Hk ltac:(discriminate) eq_refl) as C. models.
    revert P C. generalize (Schema.content (children (el_tree o))). intros l P C. sem_inv. cbn [app] in P. parts_inv. eauto.
  Qed.
  Lemma filter_shape o : In o (elements t) -> a_node TWIG_FILTER o ->
    exists l b r, parts o = [l; b; r] /\ a_node TWIG_OPERAND l /\ a_token TK_SINGLE_PIPE b /\ a_node TWIG_OPERAND r.
  Proof.
    intros He Hk. pose proof (parts_content o) as P. pose proof (node_sem _ _ _ He Hk ltac:(discriminate) eq_refl) as C. models.
    revert P C. generalize (Schema.content (children (el_tree o))). intros l P C. sem_inv. cbn [app] in P. parts_inv. eauto 8.
  Qed.
  Lemma binary_shape o : In o (elements t) -> a_node TWIG_BINARY_EXPRESSION o ->
    exists l op rest, parts o = l :: op :: rest /\ (a_node TWIG_EXPRESSION l \/ a_node TWIG_BINARY_EXPRESSION l) /\
      (exists k, a_token k op /\ In k Schema.binary_operators) /\
      (rest = [] \/ exists r, rest = [r] /\ a_node TWIG_EXPRESSION r) /\
      binary_operator o = Some op.
  Proof.
    intros He Hk. pose proof (parts_content o) as P. destruct (node_wf _ _ He Hk ltac:(discriminate)) as [C A].
    unfold Schema.conforms in C. cbn [Schema.schema] in C. cbn [Schema.agrees] in A.
    assert (B : binary_operator o = find (fun c => negb (is_node (el_tree c))) (parts o)).
    { unfold binary_operator, child_tokens, parts. rewrite find_filter. unfold Schema.known in A.
      rewrite <- children_with_tokens_trees in A. clear P C. induction (children_with_tokens o) as [|c l IH]; [reflexivity|].
      cbn [find filter map In] in *. unfold counts, el_kind. destruct (el_tree c) as [k s|k cs] eqn:Ec; cbn [is_node negb andb tree_kind].
      - unfold Schema.junk. destruct (kind_eqb k TK_UNKNOWN) eqn:E.
        + apply kind_eqb_eq in E. subst k. exfalso. apply (A s). now left.
        + rewrite orb_false_r. destruct (is_trivia k); cbn [negb find]; [apply IH; intros s' X; apply (A s'); now right|rewrite Ec; reflexivity].
      - cbn [find]. rewrite Ec. cbn [is_node negb]. apply IH. intros s' X; apply (A s'); now right. }
    revert P C. generalize (Schema.content (children (el_tree o))). intros cs P C.
    destruct C as (x & y & -> & (s & -> & C1) & (x2 & y2 & -> & (s2 & -> & C2) & C3)).
    apply in_map_iff in C1 as (k1 & <- & C1). apply in_map_iff in C2 as (k2 & <- & C2). cbn [app] in P.
    inversion P as [|? l ? ps Pl P1]; subst. inversion P1 as [|? op ? ps' Po P2]; subst. cbn [is_sym] in *.
    match goal with E : _ = parts o |- _ => rewrite <- E in B end.
    exists l, op, ps'. split; [reflexivity|]. split; [destruct C1 as [<-|[<-|[]]]; auto|]. split; [eauto|]. split.
    - models. sem_inv; parts_inv; eauto.
    - rewrite B. cbn [find]. destruct Po as (so & Eo).
      assert (is_node (el_tree l) = true) as -> by (destruct C1 as [<-|[<-|[]]]; destruct Pl as (? & ->); reflexivity).
      cbn [negb]. rewrite Eo. reflexivity.
  Qed.
End Shapes.
