(** Property theorems about operators: C11 and C46. *)
From Coq Require Import NArith String Bool Arith Lia List.
Import ListNotations.
From Verif Require Import Text Kind Regex Lexer ParserApi Machine TreeSpec Total PropParser Schema Precedence Shape Skeleton ShapeStrict PropShape
  SkelBase SkelEdges PropSkel.
Local Notation length := List.length (only parsing).
Local Open Scope list_scope.

Lemma grouped_tree dbg src t errs : parse_src dbg src = OK (t, errs) ->
  forall k cs, subtree (Node k cs) t -> grouped k cs.
Proof. intros H k cs Hs. apply sound_tree in H. now destruct (every_subtree _ _ _ _ H Hs). Qed.

(** * C46: operators are grouped as the table says, unless an operand is missing *)

(** [x op y]: an operator that reaches the end of the left operand (from the outermost to the
    innermost one, not looking into parentheses) holds tighter than [op], or equally tight if the
    operators of that level group to the left.  Only if the last operand in there is missing
    nothing is said. *)
Theorem C46_left_operands : forall dbg src t errs, parse_src dbg src = OK (t, errs) ->
  forall cs, subtree (Node TWIG_BINARY_EXPRESSION cs) t ->
  exists op x ys, operator false cs = Some op /\ operands_of cs = x :: ys /\
    forall os, right_edge x = Some os -> forall o, In o os -> may_end_left o (Bin op).
Proof.
  intros dbg src t errs H cs Hs. destruct (grouped_tree _ _ _ _ H _ _ Hs) as (op & x & ys & Ho & Hx & Hl & _).
  exists op, x, ys. repeat split; auto. intros os E o Io. unfold ends_left in Hl. rewrite E, Forall_forall in Hl. auto.
Qed.
(** An operator that begins at the beginning of the right operand holds tighter than [op], or
    equally tight if the operators of that level group to the right. *)
Theorem C46_right_operands : forall dbg src t errs, parse_src dbg src = OK (t, errs) ->
  forall cs, subtree (Node TWIG_BINARY_EXPRESSION cs) t ->
  exists op x ys, operator false cs = Some op /\ operands_of cs = x :: ys /\
    forall y, In y ys -> forall o, In o (left_edge y) -> may_begin_right o (Bin op).
Proof.
  intros dbg src t errs H cs Hs. destruct (grouped_tree _ _ _ _ H _ _ Hs) as (op & x & ys & Ho & Hx & _ & Hr).
  exists op, x, ys. repeat split; auto. intros y Iy o Io. rewrite Forall_forall in Hr. specialize (Hr y Iy).
  unfold begins_right in Hr. rewrite Forall_forall in Hr. auto.
Qed.
(** The operand of a prefix operator. *)
Theorem C46_prefix_operands : forall dbg src t errs, parse_src dbg src = OK (t, errs) ->
  forall cs, subtree (Node TWIG_UNARY_EXPRESSION cs) t ->
  exists op, operator true cs = Some op /\
    forall y, In y (operands_of cs) -> forall o, In o (left_edge y) -> may_begin_right o (Pre op).
Proof.
  intros dbg src t errs H cs Hs. destruct (grouped_tree _ _ _ _ H _ _ Hs) as (op & Ho & Hr).
  exists op. split; [exact Ho|]. intros y Iy o Io. rewrite Forall_forall in Hr. specialize (Hr y Iy).
  unfold begins_right in Hr. rewrite Forall_forall in Hr. auto.
Qed.
(** The condition of [x ? y : z] contains no operator that would have to take the conditional as its
    operand: no conditional, no arrow function and no test argument without parentheses. *)
Theorem C46_conditions : forall dbg src t errs, parse_src dbg src = OK (t, errs) ->
  forall cs, subtree (Node TWIG_CONDITIONAL_EXPRESSION cs) t ->
  exists x ys, operands_of cs = x :: ys /\ forall os, right_edge x = Some os -> ~ In Low os.
Proof.
  intros dbg src t errs H cs Hs. destruct (grouped_tree _ _ _ _ H _ _ Hs) as (x & ys & Hx & Hl).
  exists x, ys. split; [exact Hx|]. intros os E Io. unfold ends_left in Hl. rewrite E, Forall_forall in Hl. specialize (Hl _ Io).
  destruct Hl as [(i & j & [= <-] & [= <-] & Hl)|[_ Hl]]; [lia|discriminate].
Qed.

(** The table leaves no choice: of [(x o y) k z] and [x o (y k z)] exactly one is allowed. *)
Theorem C46_the_table_is_unambiguous : forall o k, level (Bin o) <> None -> level (Bin k) <> None ->
  (may_end_left (Bin o) (Bin k) <-> ~ may_begin_right (Bin k) (Bin o)).
Proof.
  intros o k Ho Hk. destruct (level (Bin o)) as [i|] eqn:Ei; [|contradiction]. destruct (level (Bin k)) as [j|] eqn:Ej; [|contradiction].
  assert (R : i = j -> right_associative (Bin o) = right_associative (Bin k)).
  { intros ->. assert (I : forall x, level (Bin x) = Some j -> In x binaries)
      by (intros x Ex; apply mem_kind_in; destruct x; try discriminate Ex; reflexivity).
    assert (A : forallb (fun x => forallb (fun y => negb (alikeb (Bin x) (Bin y))
      || Bool.eqb (right_associative (Bin x)) (right_associative (Bin y))) binaries) binaries = true) by (vm_compute; reflexivity).
    rewrite forallb_forall in A. specialize (A _ (I _ Ei)). rewrite forallb_forall in A. specialize (A _ (I _ Ej)).
    unfold alikeb in A. rewrite Ei, Ej, Nat.eqb_refl in A. now apply Bool.eqb_prop in A. }
  unfold may_end_left, may_begin_right, looser, alike. rewrite Ei, Ej. split.
  - intros [(a & b & [= <-] & [= <-] & Hl)|[(a & [= <-] & [= E]) Hr]] [(c & d & [= <-] & [= <-] & Hl2)|[(c & [= <-] & [= E2]) Hr2]]; try lia.
    rewrite R in Hr2 by auto. congruence.
  - intros Hn. destruct (lt_eq_lt_dec i j) as [[H|H]|H].
    + exfalso. apply Hn. left. exists i, j. auto.
    + subst j. right. split; [exists i; auto|]. destruct (right_associative (Bin k)) eqn:Er; [|reflexivity]. exfalso. apply Hn. right.
      split; [exists i; auto|]. now apply R.
    + left. exists j, i. auto.
Qed.

(** ** A case *)
Definition sums : text := txt "{{ a - b * c - not d ** e ** f ? (g + h) * i : x => y ~ z }}"%string.
(** some binary expression: operator, right edge of the left operand, left edge of the right operand *)
Definition op_eqb (o p : opr) : bool :=
  match o, p with Low, Low => true | Pre a, Pre b | Bin a, Bin b => kind_eqb a b | _, _ => false end.
Fixpoint oprs_eqb (l m : list opr) : bool :=
  match l, m with [], [] => true | o :: l', p :: m' => op_eqb o p && oprs_eqb l' m' | _, _ => false end.
Definition has_binary (op : kind) (l r : list opr) (t : tree) : bool :=
  existsb (fun s => match s with
    | Node TWIG_BINARY_EXPRESSION cs =>
      match operator false cs, operands_of cs with
      | Some o, [x; y] => kind_eqb o op && match right_edge x with Some os => oprs_eqb os l | None => false end && oprs_eqb (left_edge y) r
      | _, _ => false
      end
    | _ => false end) (subtrees t).
Example C46_case :
  match parse_src true sums with
  | OK (t, errs) =>
    Nat.eqb (length errs) 0
    && has_binary TK_MINUS [] [Bin TK_STAR] t                     (* a - (b * c) *)
    && has_binary TK_MINUS [Bin TK_MINUS; Bin TK_STAR] [] t       (* (a - b * c) - (not ...) *)
    && has_binary TK_DOUBLE_STAR [] [Bin TK_DOUBLE_STAR] t        (* d ** (e ** f) *)
    && has_binary TK_STAR [] [] t                                 (* (g + h) * i *)
    && has_binary TK_TILDE [] [] t
  | _ => false
  end = true.
Proof. vm_compute. reflexivity. Qed.

(** * C11: operators are grouped as the table says *)

(** This is false: when the right operand of an operator is missing the expression in front is
    taken as it is.  [a == b ** * c] is read as [(a == (b ** )) * c], without any error, although
    [*] holds tighter than [==]. *)
Definition missing_operand : text := txt "{{ a == b ** * c }}"%string.
Definition refutes (s : tree) : bool :=
  match s with
  | Node TWIG_BINARY_EXPRESSION cs =>
    match operator false cs, operands_of cs with
    | Some TK_STAR, Node TWIG_BINARY_EXPRESSION cs' :: _ =>
      match operator false cs' with Some TK_DOUBLE_EQUAL => true | _ => false end
    | _, _ => false
    end
  | _ => false
  end.
Theorem C11_operators_are_grouped_refuted :
  ~ (forall dbg src t errs, parse_src dbg src = OK (t, errs) ->
     forall cs op cs' ys op', subtree (Node TWIG_BINARY_EXPRESSION cs) t ->
       operator false cs = Some op -> operands_of cs = Node TWIG_BINARY_EXPRESSION cs' :: ys -> operator false cs' = Some op' ->
       ~ looser (Bin op') (Bin op)).
Proof.
  intros H.
  assert (E : match parse_src true missing_operand with OK (t, errs) => existsb refutes (subtrees t) | _ => false end = true)
    by (vm_compute; reflexivity).
  specialize (H true missing_operand). destruct (parse_src true missing_operand) as [[t errs]|q|]; try discriminate E.
  apply existsb_exists in E as (s & Is & E). apply subtrees_sound in Is. specialize (H t errs eq_refl).
  destruct s as [|k cs]; [discriminate|]. unfold refutes in E.
  destruct k; try discriminate E. destruct (operator false cs) as [op|] eqn:Eo; [|discriminate].
  destruct (operands_of cs) as [|x ys] eqn:Ex; [destruct op; discriminate|].
  assert (op = TK_STAR) as -> by (destruct op; try discriminate E; reflexivity).
  destruct x as [|kx cs']; [discriminate|]. destruct kx; try discriminate E.
  destruct (operator false cs') as [op'|] eqn:Eo'; [|discriminate].
  assert (op' = TK_DOUBLE_EQUAL) as -> by (destruct op'; try discriminate E; reflexivity).
  apply (H cs _ cs' ys _ Is Eo Ex Eo'). exists 6, 11. split; [reflexivity|]. split; [reflexivity|lia].
Qed.
(** No error is reported for it. *)
Example C11_missing_operand_is_silent :
  match parse_src true missing_operand with OK (_, []) => true | _ => false end = true.
Proof. vm_compute. reflexivity. Qed.

(** What holds: the exception is a left operand whose last operand is missing. *)
Theorem C11_operators_are_grouped_partial : forall dbg src t errs, parse_src dbg src = OK (t, errs) ->
  forall cs, subtree (Node TWIG_BINARY_EXPRESSION cs) t ->
  exists op x ys, operator false cs = Some op /\ operands_of cs = x :: ys /\
    (forall cs' op', x = Node TWIG_BINARY_EXPRESSION cs' -> operator false cs' = Some op' ->
       right_edge x = None \/ may_end_left (Bin op') (Bin op)) /\
    (forall y o, In y ys -> In o (left_edge y) -> may_begin_right o (Bin op)).
Proof.
  intros dbg src t errs H cs Hs. destruct (grouped_tree _ _ _ _ H _ _ Hs) as (op & x & ys & Ho & Hx & Hl & Hr).
  exists op, x, ys. repeat split; auto.
  - intros cs' op' -> Ho'. unfold ends_left in Hl. destruct (right_edge (Node TWIG_BINARY_EXPRESSION cs')) as [os|] eqn:E; [|now left].
    right. rewrite right_edge_eq, Ho' in E. destruct (last_edge TWIG_BINARY_EXPRESSION cs') as [l|]; [|discriminate].
    injection E as <-. now inversion Hl.
  - intros y o Iy Io. rewrite Forall_forall in Hr. specialize (Hr y Iy). unfold begins_right in Hr. rewrite Forall_forall in Hr. auto.
Qed.

Print Assumptions C46_left_operands.
Print Assumptions C46_right_operands.
Print Assumptions C46_prefix_operands.
Print Assumptions C46_conditions.
Print Assumptions C46_the_table_is_unambiguous.
Print Assumptions C11_operators_are_grouped_refuted.
Print Assumptions C11_operators_are_grouped_partial.
