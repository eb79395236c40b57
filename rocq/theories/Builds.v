(** Debug and release builds: every program of the grammar does the same in both.  Machinery for
    C69. *)
From Coq Require Import NArith String Bool Arith Lia List.
Import ListNotations.
From Verif Require Import Text Kind Regex Lexer LexerProofs ParserApi GrammarExpr GrammarTags GrammarHtml Machine
  TreeMachine Simulation WpBase Total TotalHtml.
Local Notation length := List.length (only parsing).
Local Open Scope list_scope.
Local Open Scope prog_scope.

(** * Where a look ahead of an assertion makes no difference *)

(** The assertion of an arrow function moves over white space in debug builds.  [ahead] tells that
    this may be the case; until the next primitive that moves there in every build, the program
    must not end, ask for the position, or call another one. *)
Definition after {B : Set} (ahead : bool) (o : op B) : bool :=
  match o with
  | Look | BumpAs _ _ | BumpN _ _ | AddErr _ None => false
  | DAssert SArrow _ => true
  | _ => ahead
  end.
Definition position {B : Set} (o : op B) : bool := match o with GetPos => true | _ => false end.
Fixpoint calm {A : Set} (ahead : bool) (p : prog A) : Prop :=
  match p with
  | Ret _ => ahead = false
  | Op o k => (position o = true -> ahead = false) /\ forall b, calm (after ahead o) (k b)
  | Call _ k => ahead = false /\ forall a, calm false (k a)
  | Iter f _ k => ahead = false /\ (forall x, calm false (f x)) /\ forall b, calm false (k b)
  end.

Lemma calm_bind (A B : Set) (g : A -> prog B) : (forall a, calm false (g a)) ->
  forall ahead (p : prog A), calm ahead p -> calm ahead (bind p g).
Proof.
  intros Hg ahead p. revert ahead. induction p as [A a|A C o k IH|A c k IH|A X C f IHf x k IH]; intros ahead H.
  - cbn [calm] in H. subst. apply Hg.
  - destruct H as [H1 H2]. cbn [bind calm]. split; auto.
  - destruct H as [H1 H2]. cbn [bind calm]. split; auto.
  - destruct H as (H1 & H2 & H3). cbn [bind calm]. split; auto.
Qed.

(** * The two machines *)

(** The state of the debug build, given that of the release build. *)
Definition near (ahead : bool) (s d : tstate) : Prop :=
  (t_rest d = t_rest s \/ (ahead = true /\ t_rest d = drop_trivia (t_rest s))) /\
  t_snk d = t_snk s /\ t_items d = t_items s /\ t_stack d = t_stack s /\ t_nev d = t_nev s /\ t_errs d = t_errs s.

Lemma near_drop ahead s d : near ahead s d -> drop_trivia (t_rest d) = drop_trivia (t_rest s).
Proof. intros [[->|[_ ->]] _]; [reflexivity|apply drop_idem]. Qed.

(** What a run of the debug build is, given the run with all assertions required. *)
Definition debug_like {A : Type} (ahead : bool) (r r' : res (A * tstate)) : Prop :=
  match r with
  | OK (a, s) => exists d, r' = OK (a, d) /\ near ahead s d
  | Panicked PStuck => True
  | Panicked q => r' = Panicked q
  | NoFuel => r' = NoFuel
  end.
(** The same for the release build. *)
Definition release_like {A : Type} (r r' : res (A * tstate)) : Prop :=
  match r with
  | Panicked PStuck | Panicked (PDebugAssert _) => True
  | _ => r' = r
  end.

Lemma no_trivia_drop r : no_trivia r = true -> drop_trivia r = r.
Proof. destruct r as [|t r]; [reflexivity|]. cbn [no_trivia drop_trivia]. now destruct (is_trivia (tk_kind t)). Qed.

Lemma debug_step T (B : Set) (o : op B) ahead s d : near ahead s d -> (position o = true -> ahead = false) ->
  debug_like (after ahead o) (bstep Both T B o s) (tstep false true T B o d).
Proof.
  intros H P. pose proof (near_drop _ _ _ H) as E. destruct H as (R & H1 & H2 & H3 & H4 & H5).
  destruct o as [| |site as_|c k| |e tok| |m k|c|q|site f]; cbn [bstep tstep]; rewrite ?E, ?H1, ?H2, ?H3, ?H4, ?H5.
  - eexists. split; [reflexivity|]. repeat split; cbn; auto.
  - cbn [position] in P. rewrite (P eq_refl) in R. destruct R as [R|[R _]]; [|discriminate]. rewrite R.
    eexists. split; [reflexivity|]. repeat split; auto.
  - destruct (drop_trivia (t_rest s)) as [|t ts]; [reflexivity|]. destruct (drop_trivia (t_snk s)) as [|u us]; [exact I|].
    eexists. split; [reflexivity|]. repeat split; cbn; auto.
  - destruct (Nat.eqb _ c); [|reflexivity]. destruct (Nat.leb c _); [|exact I].
    eexists. split; [reflexivity|]. repeat split; cbn; auto.
  - eexists. split; [reflexivity|]. repeat split; cbn; auto.
  - destruct tok as [t|].
    + eexists. split; [reflexivity|]. repeat split; cbn; auto.
    + destruct (error_here T (drop_trivia (t_rest s)) e) as [er|q|]; cbn [rbind debug_like]; [|destruct q; auto|reflexivity].
      eexists. split; [reflexivity|]. repeat split; cbn; auto.
  - eexists. split; [reflexivity|]. repeat split; cbn; auto.
  - destruct (t_stack s) as [|[m' saved] st]; [exact I|]. destruct (Nat.eqb m' m); [|exact I].
    eexists. split; [reflexivity|]. repeat split; cbn; auto.
  - destruct (split_node c (t_items s)) as [[[older nd] recent]|]; [|exact I].
    eexists. split; [reflexivity|]. repeat split; cbn; auto.
  - destruct q; reflexivity || exact I.
  - destruct (f (drop_trivia (t_rest s))); [|reflexivity].
    destruct site; cbn [arrowed orb]; try (destruct (no_trivia (t_rest s)) eqn:N; [|exact I]);
      (eexists; split; [reflexivity|]); repeat split; cbn [after t_rest t_snk t_items t_stack t_nev t_errs]; auto;
      left; now apply no_trivia_drop.
Qed.

Lemma release_step T (B : Set) (o : op B) s : release_like (bstep Both T B o s) (tstep false false T B o s).
Proof.
  destruct o as [| |site as_|c k| |e tok| |m k|c|q|site f]; cbn [bstep];
    try (match goal with |- release_like ?r ?r => destruct r as [x|q'|]; [reflexivity|destruct q'; reflexivity || exact I|reflexivity] end).
  cbn [tstep]. destruct (f _); [|exact I]. destruct (_ || _); [reflexivity|exact I].
Qed.

Lemma release_bind (A B : Set) (r r' : res (A * tstate)) (f g : A * tstate -> res (B * tstate)) :
  release_like r r' -> (forall x, release_like (f x) (g x)) -> release_like (rbind r f) (rbind r' g).
Proof.
  intros H K. destruct r as [[a s]|q|]; cbn [release_like] in H.
  - subst r'. cbn [rbind]. apply K.
  - cbn [rbind]. destruct q; try exact I; subst r'; reflexivity.
  - subst r'. reflexivity.
Qed.

Lemma release_run T : forall n (A : Set) (p : prog A) s, release_like (run (bstep Both T) n p s) (run (tstep false false T) n p s).
Proof.
  induction n as [n IHn] using (well_founded_induction lt_wf).
  intros A p. induction p as [A a|A B o k IH|A c k IH|A X B f IHf x k IH]; intros s.
  - rewrite !run_Ret. reflexivity.
  - rewrite !run_Op. apply release_bind; [apply release_step|auto].
  - rewrite !run_Call. apply release_bind; [|auto]. destruct n as [|n]; [reflexivity|]. apply IHn. lia.
  - rewrite !run_Iter. apply release_bind; [|auto]. apply release_bind; [auto|]. intros [[x'|b] s1]; cbn [fst snd].
    + destruct n as [|n]; [reflexivity|]. apply IHn. lia.
    + reflexivity.
Qed.

Lemma debug_bind (A B : Set) a1 a2 (r r' : res (A * tstate)) (f g : A * tstate -> res (B * tstate)) :
  debug_like a1 r r' -> (forall a s d, near a1 s d -> debug_like a2 (f (a, s)) (g (a, d))) ->
  debug_like a2 (rbind r f) (rbind r' g).
Proof.
  intros H K. destruct r as [[a s]|q|]; cbn [debug_like] in H.
  - destruct H as (d & -> & H). cbn [rbind]. now apply K.
  - cbn [rbind]. destruct q; try exact I; subst r'; reflexivity.
  - subst r'. reflexivity.
Qed.

Section Run.
  Context (T : list token) (Body : forall c, calm false (body c)).
  Lemma debug_run : forall n (A : Set) (p : prog A) ahead s d, calm ahead p -> near ahead s d ->
    debug_like false (run (bstep Both T) n p s) (run (tstep false true T) n p d).
  Proof.
    induction n as [n IHn] using (well_founded_induction lt_wf).
    intros A p. induction p as [A a|A B o k IH|A c k IH|A X B f IHf x k IH]; intros ahead s d C H.
    - rewrite !run_Ret. cbn [calm] in C. subst. cbn [debug_like]. eauto.
    - rewrite !run_Op. destruct C as [C1 C2]. eapply debug_bind; [eapply debug_step; eauto|]. intros b s1 d1 H1. cbn [fst snd]. eapply IH; eauto.
    - rewrite !run_Call. destruct C as [-> C2]. eapply debug_bind; [|intros b s1 d1 H1; cbn [fst snd]; eapply IH; eauto].
      destruct n as [|n]; [reflexivity|]. eapply IHn; eauto.
    - rewrite !run_Iter. destruct C as (-> & C1 & C2). eapply debug_bind; [|intros b s1 d1 H1; cbn [fst snd]; eapply IH; eauto].
      eapply debug_bind; [eapply IHf; eauto|]. intros [x'|b] s1 d1 H1; cbn [fst snd].
      + destruct n as [|n]; [reflexivity|]. eapply IHn; [lia| |exact H1]. cbn [calm]. repeat split; auto.
      + cbn [debug_like]. eauto.
  Qed.
End Run.

(** * Every function of the grammar *)


Lemma calm_look (B : Set) (f : list token -> B) : calm false (look f).
Proof. cbn [look calm]. split; [discriminate|reflexivity]. Qed.
Lemma calm_prim (B : Set) (o : op B) : after false o = false -> calm false (prim o).
Proof. intros H. cbn [prim calm]. split; [reflexivity|]. intros b. exact H. Qed.
Create HintDb calm discriminated.
#[local] Hint Constants Opaque : calm.
#[local] Hint Resolve calm_look : calm.
Lemma calm_many (X : Set) (early : X -> prog (bool * X)) (child : X -> prog X) x :
  (forall x, calm false (early x)) -> (forall x, calm false (child x)) -> calm false (parse_many_st early child x).
Proof.
  intros H1 H2. unfold parse_many_st. cbn [calm]. split; [reflexivity|]. split; [|reflexivity]. intros y.
  apply calm_bind; [|now apply calm_prim]. intros pos. apply calm_bind; [|apply calm_look]. intros b.
  destruct b; [apply calm_bind; [reflexivity|now apply calm_prim]|].
  apply calm_bind; [|apply calm_look]. intros e. destruct e; [reflexivity|]. apply calm_bind; [|apply H1].
  intros [b x1]. destruct b; [reflexivity|]. apply calm_bind; [|apply H2]. intros x2. apply calm_bind; [|now apply calm_prim].
  intros pos'. destruct (Nat.eqb _ _); reflexivity.
Qed.
Lemma calm_parse_many (early : prog bool) (child : prog unit) : calm false early -> calm false child -> calm false (parse_many early child).
Proof. intros H1 H2. unfold parse_many. apply calm_many; intros; auto. apply calm_bind; [reflexivity|exact H1]. Qed.
Lemma calm_iter (A X B : Set) (f : X -> prog (X + B)) x (k : B -> prog A) :
  (forall x, calm false (f x)) -> (forall b, calm false (k b)) -> calm false (Iter f x k).
Proof. cbn [calm]. auto. Qed.
Lemma calm_op (A B : Set) ahead (o : op B) (k : B -> prog A) : (position o = true -> ahead = false) ->
  (forall b, calm (after ahead o) (k b)) -> calm ahead (Op o k).
Proof. cbn [calm]. auto. Qed.
Lemma calm_call (A : Set) c (k : option nat -> prog A) : (forall a, calm false (k a)) -> calm false (Call c k).
Proof. cbn [calm]. auto. Qed.
Lemma calm_parse_body early child : calm false early -> calm false (parse_body early child).
Proof.
  intros H. unfold parse_body. apply calm_bind; [|now apply calm_prim]. intros.
  apply calm_bind; [intros; now apply calm_prim|]. apply calm_parse_many; [exact H|]. now apply calm_call.
Qed.
Ltac calm1 :=
  lazymatch goal with
  | |- calm _ (Ret _) => reflexivity
  | |- calm _ (bind (debug_assert_site _ _) _) => unfold debug_assert_site, precede, prim; cbn [bind]
  | |- calm _ (bind _ _) => apply calm_bind; [intros|]
  | |- calm _ (if ?b then _ else _) => destruct b
  | |- calm _ (match ?x with _ => _ end) => destruct x
  | |- calm _ (when ?b _) => unfold when
  | |- calm _ (parse_many_st _ _ _) => apply calm_many; intros
  | |- calm _ (parse_many _ _) => apply calm_parse_many
  | |- calm _ (parse_body _ _) => apply calm_parse_body
  | |- calm _ (Iter _ _ _) => apply calm_iter; intros
  | |- calm _ (Op _ _) => apply calm_op; [cbn [position]; intros; first [reflexivity|discriminate]|intros; cbn [after]]
  | |- calm _ (Call _ _) => apply calm_call; intros
  | |- calm _ (prim _) => apply calm_prim; reflexivity
  | |- calm _ _ => solve [auto with calm nocore]
  end.
Ltac calms := cbv beta iota zeta; repeat (calm1; cbv beta iota zeta).
Lemma q_at_ : forall k, calm false (at_ k).
Proof. intros. unfold at_. calms. Qed.
#[local] Hint Resolve q_at_ : calm.
Lemma q_at_set : forall s, calm false (at_set s).
Proof. intros. unfold at_set. calms. Qed.
#[local] Hint Resolve q_at_set : calm.
Lemma q_at_end : calm false at_end.
Proof. intros. unfold at_end. calms. Qed.
#[local] Hint Resolve q_at_end : calm.
Lemma q_at_following : forall s, calm false (at_following s).
Proof. intros. unfold at_following. calms. Qed.
#[local] Hint Resolve q_at_following : calm.
Lemma q_at_following_content : forall s, calm false (at_following_content s).
Proof. intros. unfold at_following_content. calms. Qed.
#[local] Hint Resolve q_at_following_content : calm.
Lemma q_at_twig_tag : forall k, calm false (at_twig_tag k).
Proof. intros. unfold at_twig_tag. calms. Qed.
#[local] Hint Resolve q_at_twig_tag : calm.
Lemma q_at_twig_block_open : calm false at_twig_block_open.
Proof. intros. unfold at_twig_block_open. calms. Qed.
#[local] Hint Resolve q_at_twig_block_open : calm.
Lemma q_at_twig_block_close : calm false at_twig_block_close.
Proof. intros. unfold at_twig_block_close. calms. Qed.
#[local] Hint Resolve q_at_twig_block_close : calm.
Lemma q_at_twig_var_open : calm false at_twig_var_open.
Proof. intros. unfold at_twig_var_open. calms. Qed.
#[local] Hint Resolve q_at_twig_var_open : calm.
Lemma q_at_twig_comment_open : calm false at_twig_comment_open.
Proof. intros. unfold at_twig_comment_open. calms. Qed.
#[local] Hint Resolve q_at_twig_comment_open : calm.
Lemma q_peek_token : calm false peek_token.
Proof. intros. unfold peek_token. calms. Qed.
#[local] Hint Resolve q_peek_token : calm.
Lemma q_peek_nth_token : forall n, calm false (peek_nth_token n).
Proof. intros. unfold peek_nth_token. calms. Qed.
#[local] Hint Resolve q_peek_nth_token : calm.
Lemma q_get_pos : calm false get_pos.
Proof. intros. unfold get_pos. calms. Qed.
#[local] Hint Resolve q_get_pos : calm.
Lemma q_bump : calm false bump.
Proof. intros. unfold bump. calms. Qed.
#[local] Hint Resolve q_bump : calm.
Lemma q_bump_site : forall ahead s, calm ahead (bump_site s).
Proof. intros. unfold bump_site, prim. calms. Qed.
#[local] Hint Resolve q_bump_site : calm.
Lemma q_bump_as : forall k, calm false (bump_as k).
Proof. intros. unfold bump_as. calms. Qed.
#[local] Hint Resolve q_bump_as : calm.
Lemma q_bump_next_n_as : forall n k, calm false (bump_next_n_as n k).
Proof. intros. unfold bump_next_n_as. calms. Qed.
#[local] Hint Resolve q_bump_next_n_as : calm.
Lemma q_explicitly_consume_trivia : calm false explicitly_consume_trivia.
Proof. intros. unfold explicitly_consume_trivia. calms. Qed.
#[local] Hint Resolve q_explicitly_consume_trivia : calm.
Lemma q_start : calm false start.
Proof. intros. unfold start. calms. Qed.
#[local] Hint Resolve q_start : calm.
Lemma q_complete : forall m k, calm false (complete m k).
Proof. intros. unfold complete. calms. Qed.
#[local] Hint Resolve q_complete : calm.
Lemma q_precede : forall c, calm false (precede c).
Proof. intros. unfold precede. calms. Qed.
#[local] Hint Resolve q_precede : calm.
Lemma q_fail : forall B p, calm false (@fail B p).
Proof. intros. unfold fail. calms. Qed.
#[local] Hint Resolve q_fail : calm.
Lemma q_debug_assert : forall f, calm false (debug_assert f).
Proof. intros. unfold debug_assert. calms. Qed.
#[local] Hint Resolve q_debug_assert : calm.
Lemma q_add_error : forall e, calm false (add_error e).
Proof. intros. unfold add_error. calms. Qed.
#[local] Hint Resolve q_add_error : calm.
Lemma q_add_error_t : forall e, calm false (add_error_t e).
Proof. intros. unfold add_error_t. calms. Qed.
#[local] Hint Resolve q_add_error_t : calm.
Lemma q_add_error_at : forall e t, calm false (add_error_at e t).
Proof. intros. unfold add_error_at. calms. Qed.
#[local] Hint Resolve q_add_error_at : calm.
Lemma q_recover_expect : forall expected set, calm false (recover_expect expected set).
Proof. intros. unfold recover_expect. calms. Qed.
#[local] Hint Resolve q_recover_expect : calm.
Lemma q_recover : forall set, calm false (recover set).
Proof. intros. unfold recover. calms. Qed.
#[local] Hint Resolve q_recover : calm.
Lemma q_display : forall k, calm false (display k).
Proof. intros. unfold display. calms. Qed.
#[local] Hint Resolve q_display : calm.
Lemma q_display_or : forall ks, calm false (display_or ks).
Proof. induction ks as [|k ks IH]; [reflexivity|]. cbn [display_or]. destruct ks; calms. Qed.
#[local] Hint Resolve q_display_or : calm.
Lemma q_expect : forall k set, calm false (expect k set).
Proof. intros. unfold expect. calms. Qed.
#[local] Hint Resolve q_expect : calm.
Lemma q_expect_any : forall ks set, calm false (expect_any ks set).
Proof. intros. unfold expect_any. calms. Qed.
#[local] Hint Resolve q_expect_any : calm.
Lemma q_parse_twig_expression_binding_power : forall bp, calm false (parse_twig_expression_binding_power bp).
Proof. intros. unfold parse_twig_expression_binding_power. calms. Qed.
#[local] Hint Resolve q_parse_twig_expression_binding_power : calm.
Lemma q_parse_twig_expression : calm false parse_twig_expression.
Proof. intros. unfold parse_twig_expression. calms. Qed.
#[local] Hint Resolve q_parse_twig_expression : calm.
Lemma q_parse_twig_name : calm false parse_twig_name.
Proof. intros. unfold parse_twig_name. calms. Qed.
#[local] Hint Resolve q_parse_twig_name : calm.
Lemma q_parse_twig_number : calm false parse_twig_number.
Proof. intros. unfold parse_twig_number. calms. Qed.
#[local] Hint Resolve q_parse_twig_number : calm.
Lemma q_parse_twig_null : calm false parse_twig_null.
Proof. intros. unfold parse_twig_null. calms. Qed.
#[local] Hint Resolve q_parse_twig_null : calm.
Lemma q_parse_twig_boolean : calm false parse_twig_boolean.
Proof. intros. unfold parse_twig_boolean. calms. Qed.
#[local] Hint Resolve q_parse_twig_boolean : calm.
Lemma q_twig_string_child : forall quote_kind interpolation_allowed, calm false (twig_string_child quote_kind interpolation_allowed).
Proof. intros. unfold twig_string_child. calms. Qed.
#[local] Hint Resolve q_twig_string_child : calm.
Lemma q_parse_twig_string : forall interpolation_allowed, calm false (parse_twig_string interpolation_allowed).
Proof. intros. unfold parse_twig_string. calms. Qed.
#[local] Hint Resolve q_parse_twig_string : calm.
Lemma q_parse_twig_array : calm false parse_twig_array.
Proof. intros. unfold parse_twig_array. calms. Qed.
#[local] Hint Resolve q_parse_twig_array : calm.
Lemma q_parse_twig_hash_key : calm false parse_twig_hash_key.
Proof. intros. unfold parse_twig_hash_key. calms. Qed.
#[local] Hint Resolve q_parse_twig_hash_key : calm.
Lemma q_parse_twig_hash_pair : calm false parse_twig_hash_pair.
Proof. intros. unfold parse_twig_hash_pair. calms. Qed.
#[local] Hint Resolve q_parse_twig_hash_pair : calm.
Lemma q_parse_twig_hash : calm false parse_twig_hash.
Proof. intros. unfold parse_twig_hash. calms. Qed.
#[local] Hint Resolve q_parse_twig_hash : calm.
Lemma q_parse_twig_function_argument : calm false parse_twig_function_argument.
Proof. intros. unfold parse_twig_function_argument. calms. Qed.
#[local] Hint Resolve q_parse_twig_function_argument : calm.
Lemma q_parse_arguments : forall closing, calm false (parse_arguments closing).
Proof. intros. unfold parse_arguments. calms. Qed.
#[local] Hint Resolve q_parse_arguments : calm.
Lemma q_parse_twig_filter : forall last_node, calm false (parse_twig_filter last_node).
Proof. intros. unfold parse_twig_filter. calms. Qed.
#[local] Hint Resolve q_parse_twig_filter : calm.
Lemma q_parse_twig_indexer : forall last_node, calm false (parse_twig_indexer last_node).
Proof. intros. unfold parse_twig_indexer. calms. Qed.
#[local] Hint Resolve q_parse_twig_indexer : calm.
Lemma q_parse_twig_function : forall last_node, calm false (parse_twig_function last_node).
Proof. intros. unfold parse_twig_function. calms. Qed.
#[local] Hint Resolve q_parse_twig_function : calm.
Lemma q_parse_twig_accessor : forall last_node, calm false (parse_twig_accessor last_node).
Proof. intros. unfold parse_twig_accessor. calms. Qed.
#[local] Hint Resolve q_parse_twig_accessor : calm.
Lemma q_parse_twig_test_implicit_argument : forall last_node, calm false (parse_twig_test_implicit_argument last_node).
Proof. intros. unfold parse_twig_test_implicit_argument. calms. Qed.
#[local] Hint Resolve q_parse_twig_test_implicit_argument : calm.
Lemma q_parse_twig_arrow_function : forall last_node, calm false (parse_twig_arrow_function last_node).
Proof. intros. unfold parse_twig_arrow_function. calms. Qed.
#[local] Hint Resolve q_parse_twig_arrow_function : calm.
Lemma q_parse_postfix_operators : forall node, calm false (parse_postfix_operators node).
Proof. intros. unfold parse_postfix_operators. calms. Qed.
#[local] Hint Resolve q_parse_postfix_operators : calm.
Lemma q_parse_twig_literal : calm false parse_twig_literal.
Proof. intros. unfold parse_twig_literal. calms. Qed.
#[local] Hint Resolve q_parse_twig_literal : calm.
Lemma q_parse_conditional_expression : forall lhs, calm false (parse_conditional_expression lhs).
Proof. intros. unfold parse_conditional_expression. calms. Qed.
#[local] Hint Resolve q_parse_conditional_expression : calm.
Lemma q_binary_loop : forall minimum_binding_power lhs, calm false (binary_loop minimum_binding_power lhs).
Proof. intros. unfold binary_loop. calms. Qed.
#[local] Hint Resolve q_binary_loop : calm.
Lemma q_parse_twig_expression_binding_power_rhs : forall minimum_binding_power lhs, calm false (parse_twig_expression_binding_power_rhs minimum_binding_power lhs).
Proof. intros. unfold parse_twig_expression_binding_power_rhs. calms. Qed.
#[local] Hint Resolve q_parse_twig_expression_binding_power_rhs : calm.
Lemma q_parse_paren_expression : calm false parse_paren_expression.
Proof. intros. unfold parse_paren_expression. calms. Qed.
#[local] Hint Resolve q_parse_paren_expression : calm.
Lemma q_parse_paren_arrow_function : forall m, calm false (parse_paren_arrow_function m).
Proof. intros. unfold parse_paren_arrow_function. calms. Qed.
#[local] Hint Resolve q_parse_paren_arrow_function : calm.
Lemma q_parse_unary_expression : calm false parse_unary_expression.
Proof. intros. unfold parse_unary_expression. calms. Qed.
#[local] Hint Resolve q_parse_unary_expression : calm.
Lemma q_parse_twig_expression_lhs : calm false parse_twig_expression_lhs.
Proof. intros. unfold parse_twig_expression_lhs. calms. Qed.
#[local] Hint Resolve q_parse_twig_expression_lhs : calm.
Lemma q_body_expression : forall minimum_binding_power, calm false (body_expression minimum_binding_power).
Proof. intros. unfold body_expression. calms. Qed.
#[local] Hint Resolve q_body_expression : calm.
Lemma q_at_twig_termination_tag : calm false at_twig_termination_tag.
Proof. intros. unfold at_twig_termination_tag. calms. Qed.
#[local] Hint Resolve q_at_twig_termination_tag : calm.
Lemma q_call_child : forall f, calm false (call_child f).
Proof. intros. unfold call_child. calms. Qed.
#[local] Hint Resolve q_call_child : calm.
Lemma q_parse_ending : forall kw r1 r2 r3 node, calm false (parse_ending kw r1 r2 r3 node).
Proof. intros. unfold parse_ending. calms. Qed.
#[local] Hint Resolve q_parse_ending : calm.
Lemma q_expression_or : forall msg set, calm false (expression_or msg set).
Proof. intros. unfold expression_or. calms. Qed.
#[local] Hint Resolve q_expression_or : calm.
Lemma q_name_or : forall msg set, calm false (name_or msg set).
Proof. intros. unfold name_or. calms. Qed.
#[local] Hint Resolve q_name_or : calm.
Lemma q_string_or : forall msg set, calm false (string_or msg set).
Proof. intros. unfold string_or. calms. Qed.
#[local] Hint Resolve q_string_or : calm.
Lemma q_opt_bump : forall k, calm false (opt_bump k).
Proof. intros. unfold opt_bump. calms. Qed.
#[local] Hint Resolve q_opt_bump : calm.
Lemma q_parse_twig_cache : forall outer child, calm false (parse_twig_cache outer child).
Proof. intros. unfold parse_twig_cache. calms. Qed.
#[local] Hint Resolve q_parse_twig_cache : calm.
Lemma q_parse_twig_with : forall outer child, calm false (parse_twig_with outer child).
Proof. intros. unfold parse_twig_with. calms. Qed.
#[local] Hint Resolve q_parse_twig_with : calm.
Lemma q_parse_end_name : forall what name, calm false (parse_end_name what name).
Proof. intros. unfold parse_end_name. calms. Qed.
#[local] Hint Resolve q_parse_end_name : calm.
Lemma q_parse_twig_macro : forall outer child, calm false (parse_twig_macro outer child).
Proof. intros. unfold parse_twig_macro. calms. Qed.
#[local] Hint Resolve q_parse_twig_macro : calm.
Lemma q_parse_twig_verbatim : forall outer child, calm false (parse_twig_verbatim outer child).
Proof. intros. unfold parse_twig_verbatim. calms. Qed.
#[local] Hint Resolve q_parse_twig_verbatim : calm.
Lemma q_parse_twig_sandbox : forall outer child, calm false (parse_twig_sandbox outer child).
Proof. intros. unfold parse_twig_sandbox. calms. Qed.
#[local] Hint Resolve q_parse_twig_sandbox : calm.
Lemma q_parse_twig_flush : forall outer, calm false (parse_twig_flush outer).
Proof. intros. unfold parse_twig_flush. calms. Qed.
#[local] Hint Resolve q_parse_twig_flush : calm.
Lemma q_parse_twig_do : forall outer, calm false (parse_twig_do outer).
Proof. intros. unfold parse_twig_do. calms. Qed.
#[local] Hint Resolve q_parse_twig_do : calm.
Lemma q_parse_twig_deprecated : forall outer, calm false (parse_twig_deprecated outer).
Proof. intros. unfold parse_twig_deprecated. calms. Qed.
#[local] Hint Resolve q_parse_twig_deprecated : calm.
Lemma q_parse_twig_autoescape : forall outer child, calm false (parse_twig_autoescape outer child).
Proof. intros. unfold parse_twig_autoescape. calms. Qed.
#[local] Hint Resolve q_parse_twig_autoescape : calm.
Lemma q_parse_twig_apply : forall outer child, calm false (parse_twig_apply outer child).
Proof. intros. unfold parse_twig_apply. calms. Qed.
#[local] Hint Resolve q_parse_twig_apply : calm.
Lemma q_parse_twig_import : forall outer, calm false (parse_twig_import outer).
Proof. intros. unfold parse_twig_import. calms. Qed.
#[local] Hint Resolve q_parse_twig_import : calm.
Lemma q_parse_name_as_name_override : forall expected_description, calm false (parse_name_as_name_override expected_description).
Proof. intros. unfold parse_name_as_name_override. calms. Qed.
#[local] Hint Resolve q_parse_name_as_name_override : calm.
Lemma q_parse_overrides : forall desc, calm false (parse_overrides desc).
Proof. intros. unfold parse_overrides. calms. Qed.
#[local] Hint Resolve q_parse_overrides : calm.
Lemma q_parse_twig_from : forall outer, calm false (parse_twig_from outer).
Proof. intros. unfold parse_twig_from. calms. Qed.
#[local] Hint Resolve q_parse_twig_from : calm.
Lemma q_parse_twig_use : forall outer, calm false (parse_twig_use outer).
Proof. intros. unfold parse_twig_use. calms. Qed.
#[local] Hint Resolve q_parse_twig_use : calm.
Lemma q_parse_include_with : forall set, calm false (parse_include_with set).
Proof. intros. unfold parse_include_with. calms. Qed.
#[local] Hint Resolve q_parse_include_with : calm.
Lemma q_parse_twig_embed : forall outer child, calm false (parse_twig_embed outer child).
Proof. intros. unfold parse_twig_embed. calms. Qed.
#[local] Hint Resolve q_parse_twig_embed : calm.
Lemma q_parse_twig_include : forall outer, calm false (parse_twig_include outer).
Proof. intros. unfold parse_twig_include. calms. Qed.
#[local] Hint Resolve q_parse_twig_include : calm.
Lemma q_parse_twig_extends : forall outer, calm false (parse_twig_extends outer).
Proof. intros. unfold parse_twig_extends. calms. Qed.
#[local] Hint Resolve q_parse_twig_extends : calm.
Lemma q_parse_twig_for : forall outer child, calm false (parse_twig_for outer child).
Proof. intros. unfold parse_twig_for. calms. Qed.
#[local] Hint Resolve q_parse_twig_for : calm.
Lemma q_parse_set_assignment : calm false parse_set_assignment.
Proof. intros. unfold parse_set_assignment. calms. Qed.
#[local] Hint Resolve q_parse_set_assignment : calm.
Lemma q_parse_twig_set : forall outer child, calm false (parse_twig_set outer child).
Proof. intros. unfold parse_twig_set. calms. Qed.
#[local] Hint Resolve q_parse_twig_set : calm.
Lemma q_parse_twig_block : forall outer child, calm false (parse_twig_block outer child).
Proof. intros. unfold parse_twig_block. calms. Qed.
#[local] Hint Resolve q_parse_twig_block : calm.
Lemma q_parse_if_branches : forall child, calm false (parse_if_branches child).
Proof. intros. unfold parse_if_branches. calms. Qed.
#[local] Hint Resolve q_parse_if_branches : calm.
Lemma q_parse_twig_if : forall outer child, calm false (parse_twig_if outer child).
Proof. intros. unfold parse_twig_if. calms. Qed.
#[local] Hint Resolve q_parse_twig_if : calm.
Lemma q_parse_twig_trans : forall outer child, calm false (parse_twig_trans outer child).
Proof. intros. unfold parse_twig_trans. calms. Qed.
#[local] Hint Resolve q_parse_twig_trans : calm.
Lemma q_parse_twig_props : forall outer, calm false (parse_twig_props outer).
Proof. intros. unfold parse_twig_props. calms. Qed.
#[local] Hint Resolve q_parse_twig_props : calm.
Lemma q_parse_twig_component : forall outer child, calm false (parse_twig_component outer child).
Proof. intros. unfold parse_twig_component. calms. Qed.
#[local] Hint Resolve q_parse_twig_component : calm.
Lemma q_parse_twig_sw_thumbnails : forall outer, calm false (parse_twig_sw_thumbnails outer).
Proof. intros. unfold parse_twig_sw_thumbnails. calms. Qed.
#[local] Hint Resolve q_parse_twig_sw_thumbnails : calm.
Lemma q_parse_twig_sw_icon : forall outer, calm false (parse_twig_sw_icon outer).
Proof. intros. unfold parse_twig_sw_icon. calms. Qed.
#[local] Hint Resolve q_parse_twig_sw_icon : calm.
Lemma q_parse_twig_sw_return : forall outer, calm false (parse_twig_sw_return outer).
Proof. intros. unfold parse_twig_sw_return. calms. Qed.
#[local] Hint Resolve q_parse_twig_sw_return : calm.
Lemma q_parse_twig_sw_silent_feature_call : forall outer child, calm false (parse_twig_sw_silent_feature_call outer child).
Proof. intros. unfold parse_twig_sw_silent_feature_call. calms. Qed.
#[local] Hint Resolve q_parse_twig_sw_silent_feature_call : calm.
Lemma q_parse_twig_sw_extends : forall outer, calm false (parse_twig_sw_extends outer).
Proof. intros. unfold parse_twig_sw_extends. calms. Qed.
#[local] Hint Resolve q_parse_twig_sw_extends : calm.
Lemma q_parse_twig_sw_include : forall outer, calm false (parse_twig_sw_include outer).
Proof. intros. unfold parse_twig_sw_include. calms. Qed.
#[local] Hint Resolve q_parse_twig_sw_include : calm.
Lemma q_parse_shopware_twig_block_statement : forall outer child, calm false (parse_shopware_twig_block_statement outer child).
Proof. intros. unfold parse_shopware_twig_block_statement. calms. Qed.
#[local] Hint Resolve q_parse_shopware_twig_block_statement : calm.
Lemma q_parse_twig_block_statement : forall child, calm false (parse_twig_block_statement child).
Proof. intros. unfold parse_twig_block_statement. calms. Qed.
#[local] Hint Resolve q_parse_twig_block_statement : calm.
Lemma q_parse_ludtwig_directive : forall outer closing_kinds, calm false (parse_ludtwig_directive outer closing_kinds).
Proof. intros. unfold parse_ludtwig_directive. calms. Qed.
#[local] Hint Resolve q_parse_ludtwig_directive : calm.
Lemma q_parse_twig_plain_comment : forall outer, calm false (parse_twig_plain_comment outer).
Proof. intros. unfold parse_twig_plain_comment. calms. Qed.
#[local] Hint Resolve q_parse_twig_plain_comment : calm.
Lemma q_parse_twig_comment_statement : calm false parse_twig_comment_statement.
Proof. intros. unfold parse_twig_comment_statement. calms. Qed.
#[local] Hint Resolve q_parse_twig_comment_statement : calm.
Lemma q_parse_twig_var_statement : calm false parse_twig_var_statement.
Proof. intros. unfold parse_twig_var_statement. calms. Qed.
#[local] Hint Resolve q_parse_twig_var_statement : calm.
Lemma q_parse_any_twig : forall child, calm false (parse_any_twig child).
Proof. intros. unfold parse_any_twig. calms. Qed.
#[local] Hint Resolve q_parse_any_twig : calm.
Lemma q_parse_html_doctype : calm false parse_html_doctype.
Proof. intros. unfold parse_html_doctype. calms. Qed.
#[local] Hint Resolve q_parse_html_doctype : calm.
Lemma q_parse_html_text : calm false parse_html_text.
Proof. intros. unfold parse_html_text. calms. Qed.
#[local] Hint Resolve q_parse_html_text : calm.
Lemma q_body_raw_inner : calm false body_raw_inner.
Proof. intros. unfold body_raw_inner. calms. Qed.
#[local] Hint Resolve q_body_raw_inner : calm.
Lemma q_early_end_tag : forall tag_kind tag_name met, calm false (early_end_tag tag_kind tag_name met).
Proof. intros. unfold early_end_tag. calms. Qed.
#[local] Hint Resolve q_early_end_tag : calm.
Lemma q_parse_html_raw_text : forall tag_kind tag_name, calm false (parse_html_raw_text tag_kind tag_name).
Proof. intros. unfold parse_html_raw_text. calms. Qed.
#[local] Hint Resolve q_parse_html_raw_text : calm.
Lemma q_parse_plain_html_comment : forall outer, calm false (parse_plain_html_comment outer).
Proof. intros. unfold parse_plain_html_comment. calms. Qed.
#[local] Hint Resolve q_parse_plain_html_comment : calm.
Lemma q_parse_html_comment : calm false parse_html_comment.
Proof. intros. unfold parse_html_comment. calms. Qed.
#[local] Hint Resolve q_parse_html_comment : calm.
Lemma q_html_string_child : forall inner, calm false (html_string_child inner).
Proof. intros. unfold html_string_child. calms. Qed.
#[local] Hint Resolve q_html_string_child : calm.
Lemma q_inner_double_quote_parser : calm false inner_double_quote_parser.
Proof. intros. unfold inner_double_quote_parser. calms. Qed.
#[local] Hint Resolve q_inner_double_quote_parser : calm.
Lemma q_inner_single_quote_parser : calm false inner_single_quote_parser.
Proof. intros. unfold inner_single_quote_parser. calms. Qed.
#[local] Hint Resolve q_inner_single_quote_parser : calm.
Lemma q_inner_no_quote_parser : calm false inner_no_quote_parser.
Proof. intros. unfold inner_no_quote_parser. calms. Qed.
#[local] Hint Resolve q_inner_no_quote_parser : calm.
Lemma q_quote : forall q, calm false match q with
  | Some TK_DOUBLE_QUOTES => inner_double_quote_parser ;; Ret tt
  | Some TK_SINGLE_QUOTES => inner_single_quote_parser ;; Ret tt
  | None => inner_no_quote_parser
  | Some _ => fail PUnreachable
  end.
Proof.
  assert (A : calm false (inner_double_quote_parser ;; Ret tt)) by (apply calm_bind; [reflexivity|apply q_inner_double_quote_parser]).
  assert (B : calm false (inner_single_quote_parser ;; Ret tt)) by (apply calm_bind; [reflexivity|apply q_inner_single_quote_parser]).
  assert (C : calm false (@fail unit PUnreachable)) by apply q_fail.
  intros [k|]; [|apply q_inner_no_quote_parser]. destruct k;
    lazymatch goal with
    | |- calm _ (fail _) => exact C
    | |- calm _ (bind inner_double_quote_parser _) => exact A
    | |- _ => exact B
    end.
Qed.
Lemma q_parse_html_attribute_value_string : calm false parse_html_attribute_value_string.
Proof.
  unfold parse_html_attribute_value_string. apply calm_bind; [intros m|apply q_start]. apply calm_bind; [intros q|calms].
  apply calm_bind; [intros i|apply q_start]. apply calm_bind; [intros []|apply q_quote].
  apply calm_bind; [intros []|calms]. apply calm_bind; [intros c|calms]. apply calm_bind; [intros; apply q_complete|].
  destruct q as [k|]; calms.
Qed.
#[local] Hint Resolve q_parse_html_attribute_value_string : calm.
Lemma q_parse_html_attribute_rest : forall attribute_m, calm false (parse_html_attribute_rest attribute_m).
Proof. intros. unfold parse_html_attribute_rest. calms. Qed.
#[local] Hint Resolve q_parse_html_attribute_rest : calm.
Lemma q_body_attr : calm false body_attr.
Proof. intros. unfold body_attr. calms. Qed.
#[local] Hint Resolve q_body_attr : calm.
Lemma q_parse_attribute_list : calm false parse_attribute_list.
Proof. intros. unfold parse_attribute_list. calms. Qed.
#[local] Hint Resolve q_parse_attribute_list : calm.
Lemma q_parse_html_ending_tag : forall tag_kind tag_name met, calm false (parse_html_ending_tag tag_kind tag_name met).
Proof. intros. unfold parse_html_ending_tag. calms. Qed.
#[local] Hint Resolve q_parse_html_ending_tag : calm.
Lemma q_parse_html_element : calm false parse_html_element.
Proof. intros. unfold parse_html_element. calms. Qed.
#[local] Hint Resolve q_parse_html_element : calm.
Lemma q_parse_any_html : calm false parse_any_html.
Proof. intros. unfold parse_any_html. calms. Qed.
#[local] Hint Resolve q_parse_any_html : calm.
Lemma q_body_any : calm false body_any.
Proof. intros. unfold body_any. calms. Qed.
#[local] Hint Resolve q_body_any : calm.
Lemma q_body : forall c, calm false (body c).
Proof. intros. unfold body. calms. Qed.
#[local] Hint Resolve q_body : calm.
Lemma q_root : calm false root.
Proof. intros. unfold root. calms. Qed.
#[local] Hint Resolve q_root : calm.
Lemma q_root_body : calm false root_body.
Proof. unfold root_body. calms. Qed.
