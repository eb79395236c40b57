(** Where white space is in the tree of a template without syntax errors: right in front of a token
    of the same node, or at the end of a string.  Machinery for C72. *)
From Coq Require Import NArith String Bool Arith Lia List.
Import ListNotations.
From Verif Require Import Text Kind Regex Lexer LexerProofs ParserApi GrammarExpr GrammarTags GrammarHtml Machine
  TreeMachine Simulation TreeSpec WpBase Total TotalHtml PropParser Schema Shape ShapeStrict ShapeHtml PropShape.
Local Notation length := List.length (only parsing).
Local Open Scope list_scope.
Local Open Scope prog_scope.

(** * What is meant *)
Definition inner (k : kind) : bool := kind_eqb k TWIG_LITERAL_STRING_INNER || kind_eqb k HTML_STRING_INNER.
Definition white (t : tree) : bool := match t with Leaf k _ => is_trivia k | Node _ _ => false end.
Fixpoint last_white (l : list tree) : bool :=
  match l with [] => false | [t] => white t | _ :: r => last_white r end.
(** The content of a string that ends in white space. *)
Definition hangs (t : tree) : bool := match t with Leaf _ _ => false | Node k cs => inner k && last_white cs end.
(** White space, and such content, is followed by a token. *)
Definition is_leaf (t : tree) : bool := match t with Leaf _ _ => true | Node _ _ => false end.
Fixpoint paired (l : list tree) : Prop :=
  match l with
  | x :: (y :: _) as r => (white x || hangs x = true -> is_leaf y = true) /\ paired r
  | _ => True
  end.
Fixpoint last_of (f : tree -> bool) (l : list tree) : bool :=
  match l with [] => false | [t] => f t | _ :: r => last_of f r end.
(** The children of a node: only those of strings end in white space. *)
Definition placed_white (k : kind) (cs : list tree) : Prop :=
  paired cs /\ last_of hangs cs = false /\ (last_of white cs = true -> inner k = true).
(** The whole tree, which may end in white space as well. *)
Definition placed_file (t : tree) : Prop :=
  exists cs, t = Node ROOT cs /\ paired cs /\ last_of hangs cs = false /\ Forall (every placed_white) cs.

(** * Programs that keep to it *)

(** After white space has been taken into the tree explicitly ([Loose]) only a token may follow, or
    the end of a string ([Ended]) and then a token.  After an error ([Dead]) anything may follow,
    as the strict machine has stopped. *)
Inductive status : Set := Tidy | Loose | Ended | Dead.
Definition next {B : Set} (st : status) (o : op B) : option status :=
  match st, o with
  | _, AddErr _ _ => Some Dead
  | _, Fail _ => Some Dead
  | _, BumpAs _ (Some k) => if is_trivia k then None else Some Tidy
  | _, BumpAs _ None => Some Tidy
  | _, BumpN _ k => if is_trivia k then None else Some Tidy
  | _, Look | _, GetPos | _, DAssert _ _ => Some st
  | Tidy, ConsumeTrivia => Some Loose
  | Tidy, _ => Some Tidy
  | Loose, Complete _ k => if inner k then Some Ended else None
  | _, _ => None
  end.
(** No interpolation starts here. *)
Definition plain (r : list token) : Prop := l_following [TK_HASHTAG; TK_OPEN_CURLY] r = false.
Definition answer {B : Set} (o : op B) : B -> Prop :=
  match o in op B return B -> Prop with Look => plain | _ => fun _ => True end.
Fixpoint snug {A : Set} (st : status) (p : prog A) : Prop :=
  match st with
  | Dead => True
  | _ =>
    match p with
    | Ret _ => st = Tidy
    | Op o k => match next st o with Some st' => forall b, answer o b -> snug st' (k b) | None => False end
    | Call _ k => st = Tidy /\ forall a, snug Tidy (k a)
    | Iter f _ k => st = Tidy /\ (forall x, snug Tidy (f x)) /\ forall b, snug Tidy (k b)
    end
  end.
Lemma snug_dead (A : Set) (p : prog A) : snug Dead p.
Proof. destruct p; exact I. Qed.
Lemma snug_Ret (A : Set) st (a : A) : snug st (Ret a) -> st = Tidy \/ st = Dead.
Proof. destruct st; cbn [snug]; auto. Qed.
Lemma snug_Op (A B : Set) st (o : op B) (k : B -> prog A) : snug st (Op o k) ->
  st = Dead \/ exists st', next st o = Some st' /\ forall b, answer o b -> snug st' (k b).
Proof. destruct st; cbn [snug]; auto; destruct (next _ o); try tauto; intros H; right; eauto. Qed.
Lemma snug_op (A B : Set) st st' (o : op B) (k : B -> prog A) : next st o = Some st' ->
  (forall b, answer o b -> snug st' (k b)) -> snug st (Op o k).
Proof. intros E H. destruct st; cbn [snug]; auto; rewrite E; exact H. Qed.
Lemma snug_Call (A : Set) st c (k : option nat -> prog A) : snug st (Call c k) ->
  st = Dead \/ (st = Tidy /\ forall a, snug Tidy (k a)).
Proof. destruct st; cbn [snug]; auto. Qed.
Lemma snug_Iter (A X B : Set) st (f : X -> prog (X + B)) x (k : B -> prog A) : snug st (Iter f x k) ->
  st = Dead \/ (st = Tidy /\ (forall x, snug Tidy (f x)) /\ forall b, snug Tidy (k b)).
Proof. destruct st; cbn [snug]; auto. Qed.

Lemma snug_bind (A B : Set) (g : A -> prog B) : (forall a, snug Tidy (g a)) ->
  forall st (p : prog A), snug st p -> snug st (bind p g).
Proof.
  intros Hg st p. revert st. induction p as [A a|A C o k IH|A c k IH|A X C f IHf x k IH]; intros st H.
  - apply snug_Ret in H as [->| ->]; [apply Hg|apply snug_dead].
  - apply snug_Op in H as [->|(st' & E & H)]; [apply snug_dead|]. cbn [bind]. eapply snug_op; [exact E|]. intros b Hb. auto.
  - apply snug_Call in H as [->|[-> H]]; [apply snug_dead|]. cbn [bind snug]. split; auto.
  - apply snug_Iter in H as [->|(-> & H1 & H2)]; [apply snug_dead|]. cbn [bind snug]. split; auto.
Qed.

(** * Every function of the grammar *)
Lemma snug_look (B : Set) (f : list token -> B) : snug Tidy (look f).
Proof. cbn [look snug next]. reflexivity. Qed.
Lemma snug_prim (B : Set) (o : op B) : next Tidy o = Some Tidy \/ next Tidy o = Some Dead -> snug Tidy (prim o).
Proof. intros [H|H]; cbn [prim snug]; rewrite H; reflexivity || (intros; apply snug_dead). Qed.
Create HintDb snug discriminated.
#[local] Hint Constants Opaque : snug.
#[local] Hint Resolve snug_look : snug.
Lemma snug_many (X : Set) (early : X -> prog (bool * X)) (child : X -> prog X) x :
  (forall x, snug Tidy (early x)) -> (forall x, snug Tidy (child x)) -> snug Tidy (parse_many_st early child x).
Proof.
  intros H1 H2. unfold parse_many_st. cbn [snug]. split; [reflexivity|]. split; [|reflexivity]. intros y.
  apply snug_bind; [|apply snug_prim; left; reflexivity]. intros pos. apply snug_bind; [|apply snug_look]. intros b.
  destruct b; [apply snug_bind; [reflexivity|apply snug_prim; left; reflexivity]|].
  apply snug_bind; [|apply snug_look]. intros e. destruct e; [reflexivity|]. apply snug_bind; [|apply H1].
  intros [b x1]. destruct b; [reflexivity|]. apply snug_bind; [|apply H2]. intros x2. apply snug_bind; [|apply snug_prim; left; reflexivity].
  intros pos'. destruct (Nat.eqb _ _); reflexivity.
Qed.
Lemma snug_parse_many (early : prog bool) (child : prog unit) : snug Tidy early -> snug Tidy child -> snug Tidy (parse_many early child).
Proof. intros H1 H2. unfold parse_many. apply snug_many; intros; auto. apply snug_bind; [reflexivity|exact H1]. Qed.
Lemma snug_iter (A X B : Set) (f : X -> prog (X + B)) x (k : B -> prog A) :
  (forall x, snug Tidy (f x)) -> (forall b, snug Tidy (k b)) -> snug Tidy (Iter f x k).
Proof. cbn [snug]. auto. Qed.
Lemma snug_call (A : Set) c (k : option nat -> prog A) : (forall a, snug Tidy (k a)) -> snug Tidy (Call c k).
Proof. cbn [snug]. auto. Qed.
Lemma snug_parse_body early child : snug Tidy early -> snug Tidy (parse_body early child).
Proof.
  intros H. unfold parse_body. apply snug_bind; [|apply snug_prim; left; reflexivity]. intros.
  apply snug_bind; [intros; apply snug_bind; [reflexivity|apply snug_prim; left; reflexivity]|]. apply snug_parse_many; [exact H|]. cbn [snug call_child bind]. split; reflexivity.
Qed.
Ltac snug1 :=
  lazymatch goal with
  | |- snug Dead _ => apply snug_dead
  | |- snug _ (Ret _) => reflexivity
  | |- snug Tidy (bind (debug_assert_site _ _) _) => unfold debug_assert_site, prim; cbn [bind]
  | |- snug Tidy (bind _ _) => apply snug_bind; [intros|]
  | |- snug _ (if ?b then _ else _) => destruct b
  | |- snug _ (match ?x with _ => _ end) => destruct x
  | |- snug _ (when ?b _) => unfold when
  | |- snug _ (parse_many_st _ _ _) => apply snug_many; intros
  | |- snug _ (parse_many _ _) => apply snug_parse_many
  | |- snug _ (parse_body _ _) => apply snug_parse_body
  | |- snug _ (Iter _ _ _) => apply snug_iter; intros
  | |- snug _ (Op _ _) => eapply snug_op; [reflexivity|intros]
  | |- snug _ (Call _ _) => apply snug_call; intros
  | |- snug _ (prim _) => apply snug_prim; first [left; reflexivity|right; reflexivity]
  | |- snug _ _ => solve [auto with snug nocore]
  end.
Ltac snugs := cbv beta iota zeta; repeat (snug1; cbv beta iota zeta).
Lemma u_at_ : forall k, snug Tidy (at_ k).
Proof. intros. unfold at_. snugs. Qed.
#[local] Hint Resolve u_at_ : snug.
Lemma u_at_set : forall s, snug Tidy (at_set s).
Proof. intros. unfold at_set. snugs. Qed.
#[local] Hint Resolve u_at_set : snug.
Lemma u_at_end : snug Tidy at_end.
Proof. intros. unfold at_end. snugs. Qed.
#[local] Hint Resolve u_at_end : snug.
Lemma u_at_following : forall s, snug Tidy (at_following s).
Proof. intros. unfold at_following. snugs. Qed.
#[local] Hint Resolve u_at_following : snug.
Lemma u_at_following_content : forall s, snug Tidy (at_following_content s).
Proof. intros. unfold at_following_content. snugs. Qed.
#[local] Hint Resolve u_at_following_content : snug.
Lemma u_at_twig_tag : forall k, snug Tidy (at_twig_tag k).
Proof. intros. unfold at_twig_tag. snugs. Qed.
#[local] Hint Resolve u_at_twig_tag : snug.
Lemma u_at_twig_block_open : snug Tidy at_twig_block_open.
Proof. intros. unfold at_twig_block_open. snugs. Qed.
#[local] Hint Resolve u_at_twig_block_open : snug.
Lemma u_at_twig_block_close : snug Tidy at_twig_block_close.
Proof. intros. unfold at_twig_block_close. snugs. Qed.
#[local] Hint Resolve u_at_twig_block_close : snug.
Lemma u_at_twig_var_open : snug Tidy at_twig_var_open.
Proof. intros. unfold at_twig_var_open. snugs. Qed.
#[local] Hint Resolve u_at_twig_var_open : snug.
Lemma u_at_twig_comment_open : snug Tidy at_twig_comment_open.
Proof. intros. unfold at_twig_comment_open. snugs. Qed.
#[local] Hint Resolve u_at_twig_comment_open : snug.
Lemma u_peek_token : snug Tidy peek_token.
Proof. intros. unfold peek_token. snugs. Qed.
#[local] Hint Resolve u_peek_token : snug.
Lemma u_peek_nth_token : forall n, snug Tidy (peek_nth_token n).
Proof. intros. unfold peek_nth_token. snugs. Qed.
#[local] Hint Resolve u_peek_nth_token : snug.
Lemma u_get_pos : snug Tidy get_pos.
Proof. intros. unfold get_pos. snugs. Qed.
#[local] Hint Resolve u_get_pos : snug.
Lemma u_bump : snug Tidy bump.
Proof. intros. unfold bump. snugs. Qed.
#[local] Hint Resolve u_bump : snug.
Lemma u_bump_site : forall s, snug Tidy (bump_site s).
Proof. intros. unfold bump_site, prim. snugs. Qed.
#[local] Hint Resolve u_bump_site : snug.
Lemma u_bump_as : snug Tidy (bump_as TK_WORD).
Proof. intros. unfold bump_as. snugs. Qed.
#[local] Hint Resolve u_bump_as : snug.
Lemma u_bump_next_n_as : forall n, snug Tidy (bump_next_n_as n TK_WORD).
Proof. intros. unfold bump_next_n_as. snugs. Qed.
#[local] Hint Resolve u_bump_next_n_as : snug.
Lemma u_start : snug Tidy start.
Proof. intros. unfold start. snugs. Qed.
#[local] Hint Resolve u_start : snug.
Lemma u_complete : forall m k, snug Tidy (complete m k).
Proof. intros. unfold complete. snugs. Qed.
#[local] Hint Resolve u_complete : snug.
Lemma u_precede : forall c, snug Tidy (precede c).
Proof. intros. unfold precede. snugs. Qed.
#[local] Hint Resolve u_precede : snug.
Lemma u_fail : forall B p, snug Tidy (@fail B p).
Proof. intros. unfold fail. snugs. Qed.
#[local] Hint Resolve u_fail : snug.
Lemma u_debug_assert : forall f, snug Tidy (debug_assert f).
Proof. intros. unfold debug_assert. snugs. Qed.
#[local] Hint Resolve u_debug_assert : snug.
Lemma u_add_error : forall e, snug Tidy (add_error e).
Proof. intros. unfold add_error. snugs. Qed.
#[local] Hint Resolve u_add_error : snug.
Lemma u_add_error_t : forall e, snug Tidy (add_error_t e).
Proof. intros. unfold add_error_t. snugs. Qed.
#[local] Hint Resolve u_add_error_t : snug.
Lemma u_add_error_at : forall e t, snug Tidy (add_error_at e t).
Proof. intros. unfold add_error_at. snugs. Qed.
#[local] Hint Resolve u_add_error_at : snug.
Lemma u_recover_expect : forall expected set, snug Tidy (recover_expect expected set).
Proof. intros. unfold recover_expect. snugs. Qed.
#[local] Hint Resolve u_recover_expect : snug.
Lemma u_recover : forall set, snug Tidy (recover set).
Proof. intros. unfold recover. snugs. Qed.
#[local] Hint Resolve u_recover : snug.
Lemma u_display : forall k, snug Tidy (display k).
Proof. intros. unfold display. snugs. Qed.
#[local] Hint Resolve u_display : snug.
Lemma u_display_or : forall ks, snug Tidy (display_or ks).
Proof. induction ks as [|k ks IH]; [reflexivity|]. cbn [display_or]. destruct ks; snugs. Qed.
#[local] Hint Resolve u_display_or : snug.
Lemma u_expect : forall k set, snug Tidy (expect k set).
Proof. intros. unfold expect. snugs. Qed.
#[local] Hint Resolve u_expect : snug.
(** A token is expected after the content of a string. *)
Lemma u_expect_ended : forall k set, snug Ended (expect k set).
Proof.
  intros. unfold expect, at_, look. cbn [bind]. eapply snug_op; [reflexivity|]. intros r _. destruct (l_at k r).
  - unfold bump, prim. cbn [bind]. eapply snug_op; [reflexivity|]. intros. reflexivity.
  - unfold display, fail. destruct (kind_display k); cbn [bind].
    + unfold add_error_t, prim. cbn [bind]. eapply snug_op; [reflexivity|]. intros. apply snug_dead.
    + eapply snug_op; [reflexivity|]. intros. apply snug_dead.
Qed.
Lemma u_expect_any : forall ks set, snug Tidy (expect_any ks set).
Proof. intros. unfold expect_any. snugs. Qed.
#[local] Hint Resolve u_expect_any : snug.
Lemma u_parse_twig_expression_binding_power : forall bp, snug Tidy (parse_twig_expression_binding_power bp).
Proof. intros. unfold parse_twig_expression_binding_power. snugs. Qed.
#[local] Hint Resolve u_parse_twig_expression_binding_power : snug.
Lemma u_parse_twig_expression : snug Tidy parse_twig_expression.
Proof. intros. unfold parse_twig_expression. snugs. Qed.
#[local] Hint Resolve u_parse_twig_expression : snug.
Lemma u_parse_twig_name : snug Tidy parse_twig_name.
Proof. intros. unfold parse_twig_name. snugs. Qed.
#[local] Hint Resolve u_parse_twig_name : snug.
Lemma u_parse_twig_number : snug Tidy parse_twig_number.
Proof. intros. unfold parse_twig_number. snugs. Qed.
#[local] Hint Resolve u_parse_twig_number : snug.
Lemma u_parse_twig_null : snug Tidy parse_twig_null.
Proof. intros. unfold parse_twig_null. snugs. Qed.
#[local] Hint Resolve u_parse_twig_null : snug.
Lemma u_parse_twig_boolean : snug Tidy parse_twig_boolean.
Proof. intros. unfold parse_twig_boolean. snugs. Qed.
#[local] Hint Resolve u_parse_twig_boolean : snug.
Lemma u_twig_string_child : forall quote_kind interpolation_allowed, snug Tidy (twig_string_child quote_kind interpolation_allowed).
Proof.
  intros. unfold twig_string_child. apply snug_bind; [|apply u_at_following]. intros [|]; [snugs|].
  unfold at_following, look. cbn [bind]. eapply snug_op; [reflexivity|]. intros r H. cbn [answer] in H. unfold plain in H. rewrite H. snugs.
Qed.
#[local] Hint Resolve u_twig_string_child : snug.
Lemma u_parse_twig_string : forall interpolation_allowed, snug Tidy (parse_twig_string interpolation_allowed).
Proof.
  intros. unfold parse_twig_string. cbv zeta. do 3 (apply snug_bind; [intros|snugs]). apply snug_bind; [intros mi|snugs].
  apply snug_bind; [intros|snugs]. unfold explicitly_consume_trivia, prim at 1. cbn [bind].
  eapply snug_op; [reflexivity|]. intros _ _. unfold complete at 1, prim at 1. cbn [bind]. eapply snug_op; [reflexivity|]. intros _ _.
  apply snug_bind; [intros; snugs|]. apply u_expect_ended.
Qed.
#[local] Hint Resolve u_parse_twig_string : snug.
Lemma u_parse_twig_array : snug Tidy parse_twig_array.
Proof. intros. unfold parse_twig_array. snugs. Qed.
#[local] Hint Resolve u_parse_twig_array : snug.
Lemma u_parse_twig_hash_key : snug Tidy parse_twig_hash_key.
Proof. intros. unfold parse_twig_hash_key. snugs. Qed.
#[local] Hint Resolve u_parse_twig_hash_key : snug.
Lemma u_parse_twig_hash_pair : snug Tidy parse_twig_hash_pair.
Proof. intros. unfold parse_twig_hash_pair. snugs. Qed.
#[local] Hint Resolve u_parse_twig_hash_pair : snug.
Lemma u_parse_twig_hash : snug Tidy parse_twig_hash.
Proof. intros. unfold parse_twig_hash. snugs. Qed.
#[local] Hint Resolve u_parse_twig_hash : snug.
Lemma u_parse_twig_function_argument : snug Tidy parse_twig_function_argument.
Proof. intros. unfold parse_twig_function_argument. snugs. Qed.
#[local] Hint Resolve u_parse_twig_function_argument : snug.
Lemma u_parse_arguments : forall closing, snug Tidy (parse_arguments closing).
Proof. intros. unfold parse_arguments. snugs. Qed.
#[local] Hint Resolve u_parse_arguments : snug.
Lemma u_parse_twig_filter : forall last_node, snug Tidy (parse_twig_filter last_node).
Proof. intros. unfold parse_twig_filter. snugs. Qed.
#[local] Hint Resolve u_parse_twig_filter : snug.
Lemma u_parse_twig_indexer : forall last_node, snug Tidy (parse_twig_indexer last_node).
Proof. intros. unfold parse_twig_indexer. snugs. Qed.
#[local] Hint Resolve u_parse_twig_indexer : snug.
Lemma u_parse_twig_function : forall last_node, snug Tidy (parse_twig_function last_node).
Proof. intros. unfold parse_twig_function. snugs. Qed.
#[local] Hint Resolve u_parse_twig_function : snug.
Lemma u_parse_twig_accessor : forall last_node, snug Tidy (parse_twig_accessor last_node).
Proof. intros. unfold parse_twig_accessor. snugs. Qed.
#[local] Hint Resolve u_parse_twig_accessor : snug.
Lemma u_parse_twig_test_implicit_argument : forall last_node, snug Tidy (parse_twig_test_implicit_argument last_node).
Proof. intros. unfold parse_twig_test_implicit_argument. snugs. Qed.
#[local] Hint Resolve u_parse_twig_test_implicit_argument : snug.
Lemma u_parse_twig_arrow_function : forall last_node, snug Tidy (parse_twig_arrow_function last_node).
Proof. intros. unfold parse_twig_arrow_function. snugs. Qed.
#[local] Hint Resolve u_parse_twig_arrow_function : snug.
Lemma u_parse_postfix_operators : forall node, snug Tidy (parse_postfix_operators node).
Proof. intros. unfold parse_postfix_operators. snugs. Qed.
#[local] Hint Resolve u_parse_postfix_operators : snug.
Lemma u_parse_twig_literal : snug Tidy parse_twig_literal.
Proof. intros. unfold parse_twig_literal. snugs. Qed.
#[local] Hint Resolve u_parse_twig_literal : snug.
Lemma u_parse_conditional_expression : forall lhs, snug Tidy (parse_conditional_expression lhs).
Proof. intros. unfold parse_conditional_expression. snugs. Qed.
#[local] Hint Resolve u_parse_conditional_expression : snug.
Lemma u_binary_loop : forall minimum_binding_power lhs, snug Tidy (binary_loop minimum_binding_power lhs).
Proof. intros. unfold binary_loop. snugs. Qed.
#[local] Hint Resolve u_binary_loop : snug.
Lemma u_parse_twig_expression_binding_power_rhs : forall minimum_binding_power lhs, snug Tidy (parse_twig_expression_binding_power_rhs minimum_binding_power lhs).
Proof. intros. unfold parse_twig_expression_binding_power_rhs. snugs. Qed.
#[local] Hint Resolve u_parse_twig_expression_binding_power_rhs : snug.
Lemma u_parse_paren_expression : snug Tidy parse_paren_expression.
Proof. intros. unfold parse_paren_expression. snugs. Qed.
#[local] Hint Resolve u_parse_paren_expression : snug.
Lemma u_parse_paren_arrow_function : forall m, snug Tidy (parse_paren_arrow_function m).
Proof. intros. unfold parse_paren_arrow_function. snugs. Qed.
#[local] Hint Resolve u_parse_paren_arrow_function : snug.
Lemma u_parse_unary_expression : snug Tidy parse_unary_expression.
Proof. intros. unfold parse_unary_expression. snugs. Qed.
#[local] Hint Resolve u_parse_unary_expression : snug.
Lemma u_parse_twig_expression_lhs : snug Tidy parse_twig_expression_lhs.
Proof. intros. unfold parse_twig_expression_lhs. snugs. Qed.
#[local] Hint Resolve u_parse_twig_expression_lhs : snug.
Lemma u_body_expression : forall minimum_binding_power, snug Tidy (body_expression minimum_binding_power).
Proof. intros. unfold body_expression. snugs. Qed.
#[local] Hint Resolve u_body_expression : snug.
Lemma u_at_twig_termination_tag : snug Tidy at_twig_termination_tag.
Proof. intros. unfold at_twig_termination_tag. snugs. Qed.
#[local] Hint Resolve u_at_twig_termination_tag : snug.
Lemma u_call_child : forall f, snug Tidy (call_child f).
Proof. intros. unfold call_child. snugs. Qed.
#[local] Hint Resolve u_call_child : snug.
Lemma u_parse_ending : forall kw r1 r2 r3 node, snug Tidy (parse_ending kw r1 r2 r3 node).
Proof. intros. unfold parse_ending. snugs. Qed.
#[local] Hint Resolve u_parse_ending : snug.
Lemma u_expression_or : forall msg set, snug Tidy (expression_or msg set).
Proof. intros. unfold expression_or. snugs. Qed.
#[local] Hint Resolve u_expression_or : snug.
Lemma u_name_or : forall msg set, snug Tidy (name_or msg set).
Proof. intros. unfold name_or. snugs. Qed.
#[local] Hint Resolve u_name_or : snug.
Lemma u_string_or : forall msg set, snug Tidy (string_or msg set).
Proof. intros. unfold string_or. snugs. Qed.
#[local] Hint Resolve u_string_or : snug.
Lemma u_opt_bump : forall k, snug Tidy (opt_bump k).
Proof. intros. unfold opt_bump. snugs. Qed.
#[local] Hint Resolve u_opt_bump : snug.
Lemma u_parse_twig_cache : forall outer child, snug Tidy (parse_twig_cache outer child).
Proof. intros. unfold parse_twig_cache. snugs. Qed.
#[local] Hint Resolve u_parse_twig_cache : snug.
Lemma u_parse_twig_with : forall outer child, snug Tidy (parse_twig_with outer child).
Proof. intros. unfold parse_twig_with. snugs. Qed.
#[local] Hint Resolve u_parse_twig_with : snug.
Lemma u_parse_end_name : forall what name, snug Tidy (parse_end_name what name).
Proof. intros. unfold parse_end_name. snugs. Qed.
#[local] Hint Resolve u_parse_end_name : snug.
Lemma u_parse_twig_macro : forall outer child, snug Tidy (parse_twig_macro outer child).
Proof. intros. unfold parse_twig_macro. snugs. Qed.
#[local] Hint Resolve u_parse_twig_macro : snug.
Lemma u_parse_twig_verbatim : forall outer child, snug Tidy (parse_twig_verbatim outer child).
Proof. intros. unfold parse_twig_verbatim. snugs. Qed.
#[local] Hint Resolve u_parse_twig_verbatim : snug.
Lemma u_parse_twig_sandbox : forall outer child, snug Tidy (parse_twig_sandbox outer child).
Proof. intros. unfold parse_twig_sandbox. snugs. Qed.
#[local] Hint Resolve u_parse_twig_sandbox : snug.
Lemma u_parse_twig_flush : forall outer, snug Tidy (parse_twig_flush outer).
Proof. intros. unfold parse_twig_flush. snugs. Qed.
#[local] Hint Resolve u_parse_twig_flush : snug.
Lemma u_parse_twig_do : forall outer, snug Tidy (parse_twig_do outer).
Proof. intros. unfold parse_twig_do. snugs. Qed.
#[local] Hint Resolve u_parse_twig_do : snug.
Lemma u_parse_twig_deprecated : forall outer, snug Tidy (parse_twig_deprecated outer).
Proof. intros. unfold parse_twig_deprecated. snugs. Qed.
#[local] Hint Resolve u_parse_twig_deprecated : snug.
Lemma u_parse_twig_autoescape : forall outer child, snug Tidy (parse_twig_autoescape outer child).
Proof. intros. unfold parse_twig_autoescape. snugs. Qed.
#[local] Hint Resolve u_parse_twig_autoescape : snug.
Lemma u_parse_twig_apply : forall outer child, snug Tidy (parse_twig_apply outer child).
Proof. intros. unfold parse_twig_apply. snugs. Qed.
#[local] Hint Resolve u_parse_twig_apply : snug.
Lemma u_parse_twig_import : forall outer, snug Tidy (parse_twig_import outer).
Proof. intros. unfold parse_twig_import. snugs. Qed.
#[local] Hint Resolve u_parse_twig_import : snug.
Lemma u_parse_name_as_name_override : forall expected_description, snug Tidy (parse_name_as_name_override expected_description).
Proof. intros. unfold parse_name_as_name_override. snugs. Qed.
#[local] Hint Resolve u_parse_name_as_name_override : snug.
Lemma u_parse_overrides : forall desc, snug Tidy (parse_overrides desc).
Proof. intros. unfold parse_overrides. snugs. Qed.
#[local] Hint Resolve u_parse_overrides : snug.
Lemma u_parse_twig_from : forall outer, snug Tidy (parse_twig_from outer).
Proof. intros. unfold parse_twig_from. snugs. Qed.
#[local] Hint Resolve u_parse_twig_from : snug.
Lemma u_parse_twig_use : forall outer, snug Tidy (parse_twig_use outer).
Proof. intros. unfold parse_twig_use. snugs. Qed.
#[local] Hint Resolve u_parse_twig_use : snug.
Lemma u_parse_include_with : forall set, snug Tidy (parse_include_with set).
Proof. intros. unfold parse_include_with. snugs. Qed.
#[local] Hint Resolve u_parse_include_with : snug.
Lemma u_parse_twig_embed : forall outer child, snug Tidy (parse_twig_embed outer child).
Proof. intros. unfold parse_twig_embed. snugs. Qed.
#[local] Hint Resolve u_parse_twig_embed : snug.
Lemma u_parse_twig_include : forall outer, snug Tidy (parse_twig_include outer).
Proof. intros. unfold parse_twig_include. snugs. Qed.
#[local] Hint Resolve u_parse_twig_include : snug.
Lemma u_parse_twig_extends : forall outer, snug Tidy (parse_twig_extends outer).
Proof. intros. unfold parse_twig_extends. snugs. Qed.
#[local] Hint Resolve u_parse_twig_extends : snug.
Lemma u_parse_twig_for : forall outer child, snug Tidy (parse_twig_for outer child).
Proof. intros. unfold parse_twig_for. snugs. Qed.
#[local] Hint Resolve u_parse_twig_for : snug.
Lemma u_parse_set_assignment : snug Tidy parse_set_assignment.
Proof. intros. unfold parse_set_assignment. snugs. Qed.
#[local] Hint Resolve u_parse_set_assignment : snug.
Lemma u_parse_twig_set : forall outer child, snug Tidy (parse_twig_set outer child).
Proof. intros. unfold parse_twig_set. snugs. Qed.
#[local] Hint Resolve u_parse_twig_set : snug.
Lemma u_parse_twig_block : forall outer child, snug Tidy (parse_twig_block outer child).
Proof. intros. unfold parse_twig_block. snugs. Qed.
#[local] Hint Resolve u_parse_twig_block : snug.
Lemma u_parse_if_branches : forall child, snug Tidy (parse_if_branches child).
Proof. intros. unfold parse_if_branches. snugs. Qed.
#[local] Hint Resolve u_parse_if_branches : snug.
Lemma u_parse_twig_if : forall outer child, snug Tidy (parse_twig_if outer child).
Proof. intros. unfold parse_twig_if. snugs. Qed.
#[local] Hint Resolve u_parse_twig_if : snug.
Lemma u_parse_twig_trans : forall outer child, snug Tidy (parse_twig_trans outer child).
Proof. intros. unfold parse_twig_trans. snugs. Qed.
#[local] Hint Resolve u_parse_twig_trans : snug.
Lemma u_parse_twig_props : forall outer, snug Tidy (parse_twig_props outer).
Proof. intros. unfold parse_twig_props. snugs. Qed.
#[local] Hint Resolve u_parse_twig_props : snug.
Lemma u_parse_twig_component : forall outer child, snug Tidy (parse_twig_component outer child).
Proof. intros. unfold parse_twig_component. snugs. Qed.
#[local] Hint Resolve u_parse_twig_component : snug.
Lemma u_parse_twig_sw_thumbnails : forall outer, snug Tidy (parse_twig_sw_thumbnails outer).
Proof. intros. unfold parse_twig_sw_thumbnails. snugs. Qed.
#[local] Hint Resolve u_parse_twig_sw_thumbnails : snug.
Lemma u_parse_twig_sw_icon : forall outer, snug Tidy (parse_twig_sw_icon outer).
Proof. intros. unfold parse_twig_sw_icon. snugs. Qed.
#[local] Hint Resolve u_parse_twig_sw_icon : snug.
Lemma u_parse_twig_sw_return : forall outer, snug Tidy (parse_twig_sw_return outer).
Proof. intros. unfold parse_twig_sw_return. snugs. Qed.
#[local] Hint Resolve u_parse_twig_sw_return : snug.
Lemma u_parse_twig_sw_silent_feature_call : forall outer child, snug Tidy (parse_twig_sw_silent_feature_call outer child).
Proof. intros. unfold parse_twig_sw_silent_feature_call. snugs. Qed.
#[local] Hint Resolve u_parse_twig_sw_silent_feature_call : snug.
Lemma u_parse_twig_sw_extends : forall outer, snug Tidy (parse_twig_sw_extends outer).
Proof. intros. unfold parse_twig_sw_extends. snugs. Qed.
#[local] Hint Resolve u_parse_twig_sw_extends : snug.
Lemma u_parse_twig_sw_include : forall outer, snug Tidy (parse_twig_sw_include outer).
Proof. intros. unfold parse_twig_sw_include. snugs. Qed.
#[local] Hint Resolve u_parse_twig_sw_include : snug.
Lemma u_parse_shopware_twig_block_statement : forall outer child, snug Tidy (parse_shopware_twig_block_statement outer child).
Proof. intros. unfold parse_shopware_twig_block_statement. snugs. Qed.
#[local] Hint Resolve u_parse_shopware_twig_block_statement : snug.
Lemma u_parse_twig_block_statement : forall child, snug Tidy (parse_twig_block_statement child).
Proof. intros. unfold parse_twig_block_statement. snugs. Qed.
#[local] Hint Resolve u_parse_twig_block_statement : snug.
Lemma u_parse_ludtwig_directive : forall outer closing_kinds, snug Tidy (parse_ludtwig_directive outer closing_kinds).
Proof. intros. unfold parse_ludtwig_directive. snugs. Qed.
#[local] Hint Resolve u_parse_ludtwig_directive : snug.
Lemma u_parse_twig_plain_comment : forall outer, snug Tidy (parse_twig_plain_comment outer).
Proof. intros. unfold parse_twig_plain_comment. snugs. Qed.
#[local] Hint Resolve u_parse_twig_plain_comment : snug.
Lemma u_parse_twig_comment_statement : snug Tidy parse_twig_comment_statement.
Proof. intros. unfold parse_twig_comment_statement. snugs. Qed.
#[local] Hint Resolve u_parse_twig_comment_statement : snug.
Lemma u_parse_twig_var_statement : snug Tidy parse_twig_var_statement.
Proof. intros. unfold parse_twig_var_statement. snugs. Qed.
#[local] Hint Resolve u_parse_twig_var_statement : snug.
Lemma u_parse_any_twig : forall child, snug Tidy (parse_any_twig child).
Proof. intros. unfold parse_any_twig. snugs. Qed.
#[local] Hint Resolve u_parse_any_twig : snug.
Lemma u_parse_html_doctype : snug Tidy parse_html_doctype.
Proof. intros. unfold parse_html_doctype. snugs. Qed.
#[local] Hint Resolve u_parse_html_doctype : snug.
Lemma u_parse_html_text : snug Tidy parse_html_text.
Proof. intros. unfold parse_html_text. snugs. Qed.
#[local] Hint Resolve u_parse_html_text : snug.
Lemma u_body_raw_inner : snug Tidy body_raw_inner.
Proof. intros. unfold body_raw_inner. snugs. Qed.
#[local] Hint Resolve u_body_raw_inner : snug.
Lemma u_early_end_tag : forall tag_kind tag_name met, snug Tidy (early_end_tag tag_kind tag_name met).
Proof. intros. unfold early_end_tag. snugs. Qed.
#[local] Hint Resolve u_early_end_tag : snug.
Lemma u_parse_html_raw_text : forall tag_kind tag_name, snug Tidy (parse_html_raw_text tag_kind tag_name).
Proof. intros. unfold parse_html_raw_text. snugs. Qed.
#[local] Hint Resolve u_parse_html_raw_text : snug.
Lemma u_parse_plain_html_comment : forall outer, snug Tidy (parse_plain_html_comment outer).
Proof. intros. unfold parse_plain_html_comment. snugs. Qed.
#[local] Hint Resolve u_parse_plain_html_comment : snug.
Lemma u_parse_html_comment : snug Tidy parse_html_comment.
Proof. intros. unfold parse_html_comment. snugs. Qed.
#[local] Hint Resolve u_parse_html_comment : snug.
Lemma u_html_string_child : forall inner, snug Tidy (html_string_child inner).
Proof. intros. unfold html_string_child. snugs. Qed.
#[local] Hint Resolve u_html_string_child : snug.
Lemma u_inner_double_quote_parser : snug Tidy inner_double_quote_parser.
Proof. intros. unfold inner_double_quote_parser. snugs. Qed.
#[local] Hint Resolve u_inner_double_quote_parser : snug.
Lemma u_inner_single_quote_parser : snug Tidy inner_single_quote_parser.
Proof. intros. unfold inner_single_quote_parser. snugs. Qed.
#[local] Hint Resolve u_inner_single_quote_parser : snug.
Lemma u_inner_no_quote_parser : snug Tidy inner_no_quote_parser.
Proof. intros. unfold inner_no_quote_parser. snugs. Qed.
#[local] Hint Resolve u_inner_no_quote_parser : snug.
Lemma u_quote : forall q, snug Tidy match q with
  | Some TK_DOUBLE_QUOTES => inner_double_quote_parser ;; Ret tt
  | Some TK_SINGLE_QUOTES => inner_single_quote_parser ;; Ret tt
  | None => inner_no_quote_parser
  | Some _ => fail PUnreachable
  end.
Proof.
  assert (A : snug Tidy (inner_double_quote_parser ;; Ret tt)) by (apply snug_bind; [reflexivity|apply u_inner_double_quote_parser]).
  assert (B : snug Tidy (inner_single_quote_parser ;; Ret tt)) by (apply snug_bind; [reflexivity|apply u_inner_single_quote_parser]).
  assert (C : snug Tidy (@fail unit PUnreachable)) by apply u_fail.
  intros [k|]; [|apply u_inner_no_quote_parser]. destruct k;
    lazymatch goal with
    | |- snug _ (fail _) => exact C
    | |- snug _ (bind inner_double_quote_parser _) => exact A
    | |- _ => exact B
    end.
Qed.
Lemma u_parse_html_attribute_value_string : snug Tidy parse_html_attribute_value_string.
Proof.
  unfold parse_html_attribute_value_string. apply snug_bind; [intros m|apply u_start]. apply snug_bind; [intros q|snugs].
  apply snug_bind; [intros i|apply u_start]. apply snug_bind; [intros []|apply u_quote].
  destruct q as [k|]; cbn [is_some is_none negb when].
  - unfold explicitly_consume_trivia, prim at 1. cbn [bind]. eapply snug_op; [reflexivity|]. intros _ _.
    unfold complete at 1, prim at 1. cbn [bind]. eapply snug_op; [reflexivity|]. intros _ _.
    apply snug_bind; [intros; snugs|]. apply snug_bind; [reflexivity|]. apply u_expect_ended.
  - snugs.
Qed.
#[local] Hint Resolve u_parse_html_attribute_value_string : snug.
Lemma u_parse_html_attribute_rest : forall attribute_m, snug Tidy (parse_html_attribute_rest attribute_m).
Proof. intros. unfold parse_html_attribute_rest. snugs. Qed.
#[local] Hint Resolve u_parse_html_attribute_rest : snug.
Lemma u_body_attr : snug Tidy body_attr.
Proof. intros. unfold body_attr. snugs. Qed.
#[local] Hint Resolve u_body_attr : snug.
Lemma u_parse_attribute_list : snug Tidy parse_attribute_list.
Proof. intros. unfold parse_attribute_list. snugs. Qed.
#[local] Hint Resolve u_parse_attribute_list : snug.
Lemma u_parse_html_ending_tag : forall tag_kind tag_name met, snug Tidy (parse_html_ending_tag tag_kind tag_name met).
Proof. intros. unfold parse_html_ending_tag. snugs. Qed.
#[local] Hint Resolve u_parse_html_ending_tag : snug.
Lemma u_parse_html_element : snug Tidy parse_html_element.
Proof. intros. unfold parse_html_element. snugs. Qed.
#[local] Hint Resolve u_parse_html_element : snug.
Lemma u_parse_any_html : snug Tidy parse_any_html.
Proof. intros. unfold parse_any_html. snugs. Qed.
#[local] Hint Resolve u_parse_any_html : snug.
Lemma u_body_any : snug Tidy body_any.
Proof. intros. unfold body_any. snugs. Qed.
#[local] Hint Resolve u_body_any : snug.
Lemma u_body : forall c, snug Tidy (body c).
Proof. intros. unfold body. snugs. Qed.
#[local] Hint Resolve u_body : snug.
Lemma u_root : snug Tidy root.
Proof. intros. unfold root. snugs. Qed.
#[local] Hint Resolve u_root : snug.
Lemma u_root_body : snug Tidy root_body.
Proof. unfold root_body. snugs. Qed.

(** * The machine *)
Definition needs (t : tree) : bool := white t || hangs t.
Lemma last_of_app f a b : last_of f (a ++ b) = match b with [] => last_of f a | _ => last_of f b end.
Proof.
  induction a as [|x a IH]; [destruct b; reflexivity|]. cbn [app]. destruct b as [|y b]; [rewrite app_nil_r; reflexivity|].
  cbn [last_of]. destruct (a ++ y :: b) eqn:E; [destruct a; discriminate E|exact IH].
Qed.
Lemma last_of_snoc f a x : last_of f (a ++ [x]) = f x.
Proof. now rewrite last_of_app. Qed.
Lemma last_white_of l : last_white l = last_of white l.
Proof. induction l as [|x l IH]; [reflexivity|]. cbn [last_white last_of]. destruct l; [reflexivity|exact IH]. Qed.
Lemma last_needs l : last_of needs l = last_of white l || last_of hangs l.
Proof. induction l as [|x l IH]; [reflexivity|]. cbn [last_of]. destruct l; [reflexivity|exact IH]. Qed.
Lemma paired_app : forall a b, paired (a ++ b) <->
  paired a /\ paired b /\ (last_of needs a = true -> match b with y :: _ => is_leaf y = true | [] => True end).
Proof.
  induction a as [|x a IH]; intros b; [cbn; intuition discriminate|]. destruct a as [|y a].
  - cbn [app last_of]. destruct b as [|z b]; cbn [paired]; unfold needs; tauto.
  - specialize (IH b). cbn [app] in *. cbn [paired] in *. cbn [last_of]. cbn [last_of] in IH. tauto.
Qed.
Lemma paired_leaves : forall l, Forall (fun t => is_leaf t = true) l -> paired l.
Proof.
  induction 1 as [|x l Hx H IH]; [exact I|]. destruct l as [|y l]; [exact I|]. cbn [paired]. split; [|exact IH]. now inversion H.
Qed.
Lemma every_leaves P l : Forall (fun t => is_leaf t = true) l -> Forall (every P) l.
Proof. apply Forall_impl. intros [k s|k cs]; [constructor|discriminate]. Qed.

Definition sealed (ts : list tree) : Prop := paired ts /\ Forall (every placed_white) ts.
Lemma sealed_leaves a b : sealed a -> Forall (fun t => is_leaf t = true) b -> sealed (a ++ b).
Proof.
  intros [H1 H2] F. split.
  - apply paired_app. split; [exact H1|]. split; [now apply paired_leaves|]. intros _. destruct F; auto.
  - apply Forall_app. split; [exact H2|now apply every_leaves].
Qed.
Lemma sealed_node a n : sealed a -> last_of needs a = false -> every placed_white n -> sealed (a ++ [n]).
Proof.
  intros [H1 H2] L E. split.
  - apply paired_app. split; [exact H1|]. split; [exact I|]. congruence.
  - apply Forall_app. auto.
Qed.
Lemma sealed_split a b : sealed (a ++ b) -> sealed a /\ sealed b.
Proof. intros [H1 H2]. apply paired_app in H1 as (A & B & _). apply Forall_app in H2 as [C D]. split; split; assumption. Qed.

Definition ending (st : status) (ts : list tree) : Prop :=
  match st with
  | Tidy => last_of needs ts = false
  | Loose => last_of hangs ts = false
  | Ended => last_of white ts = false
  | Dead => False
  end.
(** The children so far; finished nodes are nodes. *)
Definition node_item (i : item) : Prop := match i with INode _ t => is_leaf t = false | _ => True end.
Definition sealed_items (its : list item) : Prop := sealed (trees its) /\ Forall node_item its.
Definition Inv (T : list token) (st : status) (s : tstate) : Prop :=
  sealed_items (t_items s) /\ ending st (trees (t_items s)) /\
  Forall (fun f => sealed_items (snd f) /\ last_of needs (trees (snd f)) = false) (t_stack s) /\
  exists pre, T = pre ++ t_rest s.

Lemma leaf_leaves l : Forall (fun t => is_leaf t = true) (map leaf l).
Proof. induction l; constructor; auto. Qed.
Lemma trees_snoc its i : trees (its ++ [i]) = trees its ++ item_trees i.
Proof. unfold trees. rewrite flat_map_app. cbn [flat_map]. now rewrite app_nil_r. Qed.
Lemma trees_lock l : trees (map lock l) = trees l.
Proof. induction l as [|i l IH]; [reflexivity|]. unfold trees in *. cbn [map flat_map]. rewrite IH. now destruct i. Qed.
Lemma split_node_app c : forall its a t b, split_node c its = Some (a, t, b) -> exists m, its = a ++ INode m t :: b.
Proof.
  induction its as [|i its IH]; intros a t b H; [discriminate|]. cbn [split_node] in H.
  destruct (split_node c its) as [[[a' t'] b']|] eqn:E.
  - injection H as <- -> ->. destruct (IH _ _ _ eq_refl) as (m & ->). exists m. reflexivity.
  - destruct i as [| |m t'|]; try discriminate. destruct (Nat.eqb m c); [|discriminate]. injection H as <- -> ->. exists m. reflexivity.
Qed.
Lemma rest_drop (T : list token) r : (exists pre, T = pre ++ r) -> exists pre, T = pre ++ drop_trivia r.
Proof.
  intros (pre & ->). revert pre. induction r as [|t r IH]; intros pre; [exists pre; reflexivity|]. cbn [drop_trivia].
  destruct (is_trivia (tk_kind t)); [|exists pre; reflexivity]. destruct (IH (pre ++ [t])) as (p & E). exists p. rewrite <- E, <- app_assoc. reflexivity.
Qed.

Lemma head_nontriv : forall r t q, drop_trivia r = t :: q -> is_trivia (tk_kind t) = false.
Proof.
  induction r as [|x r IH]; intros t q H; [discriminate|]. cbn [drop_trivia] in H. destruct (is_trivia (tk_kind x)) eqn:E; [eauto|]. now injection H as <- _.
Qed.

Section Run.
  Context (dbg : bool) (T : list token).
  Hypothesis NI : forall pre r, T = pre ++ r -> plain r.

  Lemma bumped its k u tr : sealed_items its -> is_trivia k = false ->
    sealed_items (its ++ [ITok tr k u]) /\ ending Tidy (trees (its ++ [ITok tr k u])).
  Proof.
    intros [S SI] K. unfold sealed_items. rewrite trees_snoc. cbn [item_trees]. split; [split|].
    - apply sealed_leaves; [exact S|]. apply Forall_app. split; [apply leaf_leaves|repeat constructor].
    - apply Forall_app. repeat constructor. exact SI.
    - cbn [ending]. rewrite app_assoc, last_of_snoc. unfold needs. cbn [white hangs]. now rewrite K.
  Qed.
  Lemma snug_step (B : Set) (o : op B) st st' s b s' : Inv T st s -> next st o = Some st' -> tstep true dbg T B o s = OK (b, s') ->
    answer o b /\ Inv T st' s'.
  Proof.
    intros (S & E & F & R) N H. pose proof (rest_drop _ _ R) as R'.
    destruct o as [| |site as_|n k| |e tok| |m k|c|q|site f]; cbn [tstep] in H; cbn [answer].
    - injection H as <- <-. split; [destruct R' as (pre & R'); now apply (NI pre)|].
      assert (st' = st) as -> by (destruct st; cbn in N; congruence). split; [exact S|]. split; [exact E|]. split; [exact F|]. exact R'.
    - injection H as <- <-. assert (st' = st) as -> by (destruct st; cbn in N; congruence). split; [exact I|]. split; [exact S|]. split; [exact E|]. split; [exact F|]. exact R.
    - destruct (drop_trivia (t_rest s)) as [|t ts] eqn:Dr; [discriminate|]. destruct (drop_trivia (t_snk s)) as [|u us]; [discriminate|].
      injection H as <- <-. split; [exact I|].
      assert (K : st' = Tidy /\ is_trivia (match as_ with Some k => k | None => tk_kind t end) = false).
      { destruct as_ as [k|].
        - destruct st; cbn [next] in N; (destruct (is_trivia k) eqn:Z; [discriminate N|]; split; [congruence|reflexivity]).
        - split; [destruct st; cbn [next] in N; congruence|]. apply (head_nontriv (t_rest s) t ts Dr). }
      destruct K as [-> K]. destruct (bumped (t_items s) _ [u] (take_trivia (t_snk s)) S K) as [A1 A2].
      split; [exact A1|]. split; [exact A2|]. split; [exact F|]. cbn [t_rest]. destruct R' as (pre & ->). exists (pre ++ [t]). rewrite <- app_assoc. reflexivity.
    - destruct (Nat.eqb _ n); [|discriminate]. destruct (Nat.leb n _); [|discriminate]. injection H as <- <-. split; [exact I|].
      assert (K : st' = Tidy /\ is_trivia k = false).
      { destruct st; cbn [next] in N; (destruct (is_trivia k) eqn:Z; [discriminate N|]; split; [congruence|reflexivity]). }
      destruct K as [-> K]. destruct (bumped (t_items s) _ (firstn n (drop_trivia (t_snk s))) (take_trivia (t_snk s)) S K) as [A1 A2].
      split; [exact A1|]. split; [exact A2|]. split; [exact F|]. cbn [t_rest]. destruct R' as (pre & ->). exists (pre ++ firstn n (drop_trivia (t_rest s))).
      rewrite <- app_assoc, firstn_skipn. reflexivity.
    - injection H as <- <-. split; [exact I|]. destruct st; cbn [next] in N; try discriminate. injection N as <-.
      destruct S as [S SI]. unfold Inv, sealed_items. cbn [t_items t_stack t_rest]. rewrite trees_snoc. cbn [item_trees].
      split; [split; [apply sealed_leaves; [exact S|apply leaf_leaves]|apply Forall_app; split; [exact SI|repeat constructor]]|]. split; [|auto]. cbn [ending]. rewrite last_of_app.
      destruct (map leaf (take_trivia (t_snk s))) as [|x l] eqn:El.
      + cbn [ending] in E. rewrite last_needs in E. now apply orb_false_iff in E.
      + rewrite <- El. clear. induction (take_trivia (t_snk s)) as [|y l IH]; [reflexivity|]. cbn [map last_of]. destruct (map leaf l); [reflexivity|exact IH].
    - destruct tok; discriminate H.
    - injection H as <- <-. split; [exact I|]. destruct st; cbn [next] in N; try discriminate. injection N as <-.
      split; [split; [split; [exact I|constructor]|constructor]|]. split; [reflexivity|]. split; [|exact R]. cbn [t_stack]. constructor; [|exact F]. cbn [snd]. split; [exact S|exact E].
    - destruct (t_stack s) as [|[m' saved] stk]; [discriminate|]. destruct (Nat.eqb m' m); [|discriminate]. injection H as <- <-. split; [exact I|].
      inversion F as [|? ? [[F1 FI] F2] F3]; subst. cbn [snd] in *. destruct S as [S SI]. unfold Inv, sealed_items. cbn [t_items t_stack t_rest]. rewrite trees_snoc. cbn [item_trees].
      assert (G : last_of hangs (trees (t_items s)) = false /\ (last_of white (trees (t_items s)) = true -> inner k = true) /\
                  ending st' (trees saved ++ [Node k (trees (t_items s))])).
      { destruct st; cbn [next] in N; try discriminate.
        - injection N as <-. cbn [ending] in *. rewrite last_needs in E. apply orb_false_iff in E as [E1 E2]. rewrite last_of_snoc. unfold needs. cbn [white hangs].
          rewrite last_white_of, E1, andb_false_r. repeat split; auto; congruence.
        - destruct (inner k) eqn:Z; [|discriminate]. injection N as <-. cbn [ending] in *. rewrite last_of_snoc. cbn [white]. auto. }
      destruct G as (G1 & G2 & G3). split; [|auto]. split; [|apply Forall_app; split; [exact FI|repeat constructor]].
      apply sealed_node; auto. constructor; [|apply S]. split; [apply S|]. auto.
    - destruct (split_node c (t_items s)) as [[[older nd] recent]|] eqn:Q; [|discriminate]. injection H as <- <-. split; [exact I|].
      destruct st; cbn [next] in N; try discriminate. injection N as <-. destruct (split_node_app _ _ _ _ _ Q) as (m & Ei). rewrite Ei in *.
      destruct S as [S SI]. apply Forall_app in SI as [SI1 SI2]. inversion SI2 as [|? ? SI3 SI4]; subst.
      unfold trees in S, E. rewrite flat_map_app in S, E. cbn [flat_map item_trees] in S, E. unfold Inv. cbn [t_items t_stack t_rest].
      assert (Tn : trees (ILock nd :: map lock recent) = nd :: trees recent) by (unfold trees at 1; cbn [flat_map item_trees app]; f_equal; apply trees_lock).
      unfold sealed_items. rewrite Tn. pose proof (sealed_split _ _ S) as [S1 S2]. split; [split; [exact S2|]|].
      { constructor; [exact I|]. clear -SI4. induction SI4 as [|i l Hi _ IH]; [constructor|]. cbn [map]. constructor; [destruct i; exact I|exact IH]. }
      split; [cbn [ending] in *; rewrite last_of_app in E; exact E|].
      split; [|exact R]. constructor; [|exact F]. cbn [snd]. split; [split; [exact S1|exact SI1]|]. destruct S as [S _]. apply paired_app in S as (_ & _ & S). cbn [app] in S.
      fold (trees older) in *. destruct (last_of needs (trees older)) eqn:Z; [|reflexivity]. specialize (S eq_refl). cbn [node_item] in SI3. congruence.
    - discriminate H.
    - assert (st' = st) as -> by (destruct st; cbn in N; congruence).
      destruct dbg; [destruct (f _); [|discriminate]|]; injection H as <- <-; (split; [exact I|]); (split; [exact S|]); (split; [exact E|]); (split; [exact F|]); [exact R'|exact R].
  Qed.

  Lemma next_alive (B : Set) (o : op B) st s b s' : tstep true dbg T B o s = OK (b, s') -> next st o <> Some Dead \/ st = Dead.
  Proof.
    destruct o as [| |site as_|n k| |e tok| |m k|c|q|site f]; cbn [tstep]; intros H; try (destruct tok); try discriminate H;
      destruct st; cbn [next]; auto; left; try discriminate; try (destruct as_ as [k|]; [destruct (is_trivia k)|]; discriminate);
      try (destruct (is_trivia k); discriminate); destruct (inner k); discriminate.
  Qed.
  Lemma snug_run : forall n (A : Set) (p : prog A) st s a s', snug st p -> st <> Dead -> Inv T st s ->
    run (tstep true dbg T) n p s = OK (a, s') -> Inv T Tidy s'.
  Proof.
    induction n as [n IHn] using (well_founded_induction lt_wf).
    intros A p. induction p as [A a|A B o k IH|A c k IH|A X B f IHf x k IH]; intros st s a' s' C D V H.
    - rewrite run_Ret in H. injection H as <- <-. apply snug_Ret in C as [->|C]; [exact V|contradiction].
    - rewrite run_Op in H. apply snug_Op in C as [C|(st' & N & C)]; [contradiction|].
      destruct (tstep true dbg T B o s) as [[b s1]|q|] eqn:E; try discriminate. cbn [rbind fst snd] in H.
      destruct (snug_step _ _ _ _ _ _ _ V N E) as [A1 A2]. eapply (IH b st'); eauto. intros ->.
      destruct (next_alive _ _ st _ _ _ E); contradiction.
    - rewrite run_Call in H. apply snug_Call in C as [C|[-> C]]; [contradiction|].
      destruct n as [|n]; [discriminate|].
      match type of H with rbind ?r _ = _ => destruct r as [[b s1]|q|] eqn:E; try discriminate end. cbn [rbind fst snd] in H.
      assert (V1 : Inv T Tidy s1) by (eapply (IHn n ltac:(lia)); [apply u_body|discriminate|exact V|exact E]).
      eapply (IH b Tidy); eauto; discriminate.
    - rewrite run_Iter in H. apply snug_Iter in C as [C|(-> & C1 & C2)]; [contradiction|].
      match type of H with rbind ?r _ = _ => destruct r as [[b s2]|q|] eqn:E; try discriminate end. cbn [rbind fst snd] in H.
      assert (V2 : Inv T Tidy s2).
      { match type of E with rbind ?r _ = _ => destruct r as [[y s1]|q|] eqn:E1; try discriminate end. cbn [rbind fst snd] in E.
        assert (V1 : Inv T Tidy s1) by (eapply (IHf x Tidy); [apply C1|discriminate|exact V|exact E1]). destruct y as [x'|b'].
        - destruct n as [|n]; [discriminate|]. eapply (IHn n ltac:(lia) _ _ Tidy); [|discriminate|exact V1|exact E]. cbn [snug]. auto.
        - injection E as <- <-. exact V1. }
      eapply (IH b Tidy); eauto; discriminate.
  Qed.
End Run.

(** * Every node of an error-free parse *)
Lemma snug_tree dbg src t : parse_src dbg src = OK (t, []) -> (forall pre r, lex src = pre ++ r -> plain r) -> placed_file t.
Proof.
  intros H NI. unfold parse_src in H. destruct (lex src) as [|t0 T0] eqn:E0.
  { assert (E : parse_tokens dbg (parse_fuel []) [] = OK (Node ROOT [], [])) by (destruct dbg; vm_compute; reflexivity).
    rewrite E in H. injection H as <-. exists []. repeat split. constructor. }
  revert H NI. generalize (t0 :: T0), (@nil_cons _ t0 T0). clear. intros T HT H NI. cbv zeta in H.
  pose proof (parse_tokens_sim dbg (parse_fuel T) T) as Sim.
  pose proof (root_wp dbg T (not_eq_sym HT) (t_root T)) as W.
  assert (Hw : Total.wf T (t_root T)).
  { constructor; cbn [t_root t_rest t_snk t_items t_stack t_errs]; auto.
    - exists []. reflexivity.
    - exists []. split; [reflexivity|]. cbn. constructor.
    - exists Apart. split; [reflexivity|]. congruence. }
  specialize (W Hw eq_refl eq_refl eq_refl). unfold parse_fuel in *.
  pose proof (agree_run dbg T (2 * length T + 1) _ root_body (t_root T)) as A.
  destruct (run (tstep false dbg T) (2 * length T + 1) root_body (t_root T)) as [[u s]|q|]; cbn [holds agree_unless_error] in *.
  - destruct W as ([W1 _ _ _ _] & Hd & Hs). rewrite W1 in Sim. specialize (Sim Hs Hd). rewrite Sim in H.
    injection H as <- He. destruct A as [_ A]. rewrite He in A. specialize (A eq_refl).
    assert (V : Inv T Tidy s).
    { eapply (snug_run dbg T NI); [apply u_root_body|discriminate| |exact A]. split; [split; [split; [exact I|constructor]|constructor]|]. split; [reflexivity|].
      split; [repeat constructor|]. exists []. reflexivity. }
    destruct V as ([V1 _] & V2 & _). cbn [ending] in V2. rewrite last_needs in V2. apply orb_false_iff in V2 as [V2 V3].
    pose proof (sealed_leaves _ _ V1 (leaf_leaves (t_snk s))) as [G1 G2]. eexists. split; [reflexivity|]. split; [exact G1|]. split; [|exact G2].
    rewrite last_of_app. destruct (map leaf (t_snk s)) as [|x l] eqn:El; [exact V3|]. rewrite <- El. clear.
    induction (t_snk s) as [|y l IH]; [reflexivity|]. cbn [map last_of]. destruct (map leaf l); [reflexivity|exact IH].
  - destruct q; try discriminate; try (rewrite Sim in H; discriminate). exfalso.
    destruct W as [[_ X]|[_ [X|[X|X]]]]; discriminate X.
  - rewrite Sim in H. discriminate.
Qed.
