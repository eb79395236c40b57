(** Trees of error-free parses, part 2: expressions. *)
From Coq Require Import NArith String Bool Arith Lia List.
Import ListNotations.
From Verif Require Import Text Kind Regex Lexer LexerProofs ParserApi GrammarExpr GrammarTags GrammarHtml
  Machine TreeMachine Simulation TreeSpec WpBase Total Schema Shape ShapeStrict.
Local Notation length := List.length (only parsing).
Local Open Scope list_scope.
Local Open Scope prog_scope.
Local Open Scope cm_scope.

Section Expr.
  Context (dbg : bool) (T : list token) (N : nat).
  Notation J := (SJ dbg T).
  Context (HC : forall m c r, m < N -> J m r [] [] (body c) (Rc c)).

  Lemma sx_exprj n r bp : n <= N ->
    J n r [] [] (parse_twig_expression_binding_power bp) (fun a _ t => optj1 [TWIG_EXPRESSION] a t).
  Proof.
    intros Hn. unfold parse_twig_expression_binding_power. apply J_tail. eapply J_call.
    - intros m Hm. apply HC. lia.
    - cbv beta. intros a r1 t1 _ H. apply J_ret. exact H.
  Qed.
  Lemma sx_expr n r bp : n <= N ->
    J n r [] [] (parse_twig_expression_binding_power bp) (fun a _ t => opt1 [TWIG_EXPRESSION] a t).
  Proof. intros Hn. eapply J_mono; [now apply sx_exprj|]. cbv beta. intros a r1 t1 _. apply optj1_opt1. Qed.
  Lemma sx_expression n r : n <= N -> J n r [] [] parse_twig_expression (fun a _ t => opt1 [TWIG_EXPRESSION] a t).
  Proof. apply sx_expr. Qed.

  Lemma sx_name n r : J n r [] [] parse_twig_name (fun a _ t => opt1 [TWIG_LITERAL_NAME] a t).
  Proof.
    unfold parse_twig_name. steps. destruct (hd_error r0); [|now apply J_ret]. step; [now apply J_ret|].
    steps. apply J_ret. fin.
  Qed.
  Lemma sx_number n r : drop_trivia r = r -> l_at TK_NUMBER r = true ->
    J n r [] [] parse_twig_number (fun a _ t => is1 [TWIG_LITERAL_NUMBER] a t).
  Proof. intros Hn E. unfold parse_twig_number. steps. apply J_ret. fin. Qed.
  Lemma sx_null n r : drop_trivia r = r -> l_at TK_NULL r = true ->
    J n r [] [] parse_twig_null (fun a _ t => is1 [TWIG_LITERAL_NULL] a t).
  Proof. intros Hn E. unfold parse_twig_null. steps. apply J_ret. fin. Qed.
  Lemma sx_boolean n r : drop_trivia r = r -> l_at_set [TK_TRUE; TK_FALSE] r = true ->
    J n r [] [] parse_twig_boolean (fun a _ t => is1 [TWIG_LITERAL_BOOLEAN] a t).
  Proof. intros Hn E. unfold parse_twig_boolean. steps. apply J_ret. fin. Qed.

  Notation inner := (Many (AnyTok <|> nd [TWIG_LITERAL_STRING_INTERPOLATION])).
  Lemma sx_string_child n r q b : n <= N -> J n r [] [] (twig_string_child q b) (fun _ _ t => sem inner (ck t)).
  Proof.
    intros Hn. unfold twig_string_child. step. step.
    - steps. apply J_ret. sm.
    - step. step.
      + destruct (following2 _ _ _ Hn0 Heqb1) as (u & us & v & vs & -> & Ku & Hv & Kv).
        destruct b; cbn [negb].
        * step. step. step. rewrite Ku. step. rewrite Hv in Hd. injection Hd as <- <-. rewrite Kv.
          call sx_expression. opts a H; cbn [is_none]; steps. apply J_ret. sm.
        * step. apply J_tail. step.
      + steps. apply J_ret. sm.
  Qed.
  Lemma sx_string n r b : n <= N -> drop_trivia r = r -> l_at_set [TK_DOUBLE_QUOTES; TK_SINGLE_QUOTES] r = true ->
    J n r [] [] (parse_twig_string b) (fun a _ t => is1 [TWIG_LITERAL_STRING] a t).
  Proof.
    intros HN Hn E. unfold parse_twig_string. steps. eapply J_app.
    { many inner. steps; [now apply J_ret|]. call sx_string_child. apply J_ret. sm. }
    cbv beta. intros _ r1 t1 _ H1. cbn [app]. step. step. step.
    apply mem_kind_in in E. destruct E as [E|[E|[]]]; rewrite <- E in *; steps;
      (eapply S_complete_known; [reflexivity|reflexivity|sm|repeat constructor; discriminate|]);
      intros cs'; apply J_ret; fin.
  Qed.

  Lemma sx_array n r : n <= N -> drop_trivia r = r -> l_at TK_OPEN_SQUARE r = true ->
    J n r [] [] parse_twig_array (fun a _ t => is1 [TWIG_LITERAL_ARRAY] a t).
  Proof.
    intros HN Hn E. unfold parse_twig_array. steps.
    eapply J_app; [apply (S_commas _ _ n ts [TWIG_EXPRESSION] (l_at TK_CLOSE_SQUARE))|].
    { intros tok1 ts1 H. cbn [l_at]. rewrite H. reflexivity. }
    { intros m1 r1 Hm1. apply sx_expression. lia. }
    cbv beta. intros _ r1 t1 _ H1. steps. apply J_ret. fin.
  Qed.

  Lemma sx_hash_key n r : n <= N ->
    J n r [] [] parse_twig_hash_key (fun a _ t => opt1 [TWIG_LITERAL_HASH_KEY] a t).
  Proof.
    intros HN. unfold parse_twig_hash_key. step. step.
    { call sx_number. prec. steps. apply J_ret. fin. }
    step. step.
    { eapply J_app; [apply sx_string; auto|].
      { destruct r0; [discriminate|]. cbn [l_at_set] in *. apply mem_kind_in. apply mem_kind_in in Heqb0. cbn [In] in *. tauto. }
      cbv beta. intros a r1 t1 _ H. prec. steps. apply J_ret. fin. }
    step. step.
    { call sx_expression. opts a H; cbn [is_none]; steps. apply J_ret. fin. }
    step. destruct (hd_error r0); [|now apply J_ret]. step; [|now apply J_ret]. steps. apply J_ret. fin.
  Qed.
  Lemma sx_hash_pair n r : n <= N ->
    J n r [] [] parse_twig_hash_pair (fun a _ t => opt1 [TWIG_LITERAL_HASH_PAIR] a t).
  Proof.
    intros HN. unfold parse_twig_hash_pair. call sx_hash_key. destruct a as [c|]; [|now apply J_ret].
    cbn [opt1] in H. step. step.
    - call sx_expression. opts a H0; cbn [is_none]; [|steps]. steps. prec1 H. steps. apply J_ret. fin.
    - step. prec. steps. apply J_ret. fin.
  Qed.
  Lemma sx_hash n r : n <= N -> drop_trivia r = r -> l_at TK_OPEN_CURLY r = true ->
    J n r [] [] parse_twig_hash (fun a _ t => is1 [TWIG_LITERAL_HASH] a t).
  Proof.
    intros HN Hn E. unfold parse_twig_hash. steps.
    eapply J_app; [apply (S_commas _ _ n ts [TWIG_LITERAL_HASH_PAIR] (l_at TK_CLOSE_CURLY))|].
    { intros tok1 ts1 H. cbn [l_at]. rewrite H. reflexivity. }
    { intros m1 r1 Hm1. apply sx_hash_pair. lia. }
    cbv beta. intros _ r1 t1 _ H1. steps. apply J_ret. fin.
  Qed.

  Lemma sx_argument n r : n <= N ->
    J n r [] [] parse_twig_function_argument (fun a _ t => opt1 [TWIG_EXPRESSION; TWIG_NAMED_ARGUMENT] a t).
  Proof.
    intros HN. unfold parse_twig_function_argument. step. step.
    - destruct (following2 _ _ _ Hn Heqb) as (u & us & v & vs & -> & Ku & Hv & Kv).
      do 2 step. rewrite Ku. step. call sx_expression. opts a H; steps; apply J_ret; fin.
    - eapply J_mono; [apply sx_expression; lia|]. cbv beta. intros [c|] r1 t1 _ H; cbn [opt1] in *; [|exact H].
      eapply is1_sub; [exact H|reflexivity].
  Qed.
  Lemma sx_arguments n r closing : n <= N -> mem_kind TK_UNKNOWN closing = false ->
    J n r [] [] (parse_arguments closing)
      (fun _ _ t => sem (commas (nd [TWIG_EXPRESSION; TWIG_NAMED_ARGUMENT])) (ck t)).
  Proof.
    intros HN Hu. unfold parse_arguments. apply (S_commas _ _ n r _ (l_at_set closing)).
    - intros tok ts H. cbn [l_at_set]. now rewrite H.
    - intros m1 r1 Hm1. apply sx_argument. lia.
  Qed.

  Lemma sx_filter_of n r t rest c ks : n <= N -> is1 ks c t ->
    (forall l, sem (nd ks) l -> sem (nd operands <|> (name >> nd [TWIG_ARGUMENTS])) (l ++ ck rest)) ->
    drop_trivia r = r -> l_at TK_SINGLE_PIPE r = true ->
    J n r [] (t ++ rest) (parse_twig_filter c) (fun a _ t => is1 [TWIG_FILTER] a t).
  Proof.
    intros HN H Hl Hn E. unfold parse_twig_filter. step. prec1 H.
    eapply S_complete; [reflexivity|reflexivity|rewrite ck_app, ck_lock; auto|]. intros cs.
    prec. call sx_name.
    opts a H2; cbn [is_none]; [|steps]. step. step.
    - call sx_arguments. steps. apply J_ret. fin.
    - steps. apply J_ret. fin.
  Qed.
  Lemma sx_filter n r t c : n <= N -> is1 operands c t -> drop_trivia r = r -> l_at TK_SINGLE_PIPE r = true ->
    J n r [] t (parse_twig_filter c) (fun a _ t => is1 operands a t).
  Proof.
    intros HN H Hn E. rewrite <- (app_nil_r t). eapply J_mono; [eapply (sx_filter_of n r t [] c operands); eauto|].
    - intros l Hl. rewrite app_nil_r. left. exact Hl.
    - cbv beta. intros a r1 t1 _ H1. eapply is1_sub; [exact H1|reflexivity].
  Qed.
  Lemma sx_indexer n r t c : n <= N -> is1 operands c t -> drop_trivia r = r -> l_at TK_OPEN_SQUARE r = true ->
    J n r [] t (parse_twig_indexer c) (fun a _ t => is1 operands a t).
  Proof.
    intros HN H Hn E. unfold parse_twig_indexer. step. prec. step. prec. call sx_expression.
    step. step.
    - call sx_expression. opts a H2; opts a0 H3; cbn [is_none andb]; steps; apply J_ret; fin.
    - opts a H2; cbn [is_none andb]; steps; apply J_ret; fin.
  Qed.
  Lemma sx_function n r t c : n <= N -> is1 operands c t -> drop_trivia r = r -> l_at TK_OPEN_PARENTHESIS r = true ->
    J n r [] t (parse_twig_function c) (fun a _ t => is1 operands a t).
  Proof.
    intros HN H Hn E. unfold parse_twig_function. step. prec. step. prec. call sx_arguments.
    steps. apply J_ret. fin.
  Qed.
  Lemma sx_accessor n r t c : n <= N -> is1 operands c t -> drop_trivia r = r -> l_at TK_DOT r = true ->
    J n r [] t (parse_twig_accessor c) (fun a _ t => is1 operands a t).
  Proof.
    intros HN H Hn E. unfold parse_twig_accessor. step. prec. step. prec. do 4 step.
    - call sx_number. cbn [app]. prec. steps. apply J_ret. fin.
    - call sx_name. opts a H2; cbn [is_none]; [|steps]. steps.
      + eapply J_mono; [apply sx_function; auto|]. { apply is1_node. reflexivity. } auto.
      + apply J_ret. fin.
  Qed.
  Lemma sx_implicit n r t c : n <= N -> is1 operands c t ->
    J n r [] t (parse_twig_test_implicit_argument c) (fun a _ t => is1 operands a t).
  Proof.
    intros HN H. unfold parse_twig_test_implicit_argument. prec. step. prec. call sx_expression.
    opts a H2; cbn [is_none]; steps. apply J_ret. fin.
  Qed.

  Lemma sx_arrow n r t c : n <= N -> is1 [TWIG_ARGUMENTS] c t ->
    J n r [] t (parse_twig_arrow_function c) (fun a _ t => is1 operands a t).
  Proof.
    intros HN H. unfold parse_twig_arrow_function. apply J_dassert_site. intros r1 Hr1. prec. norm.
    apply J_bump_site. intros tok ts tr Hd. call sx_expression. opts a H1; cbn [is_none]; [|steps]. cbn [when]. step. step.
    apply J_complete; [|apply J_ret; fin].
    intros G. destruct Hr1 as [[Hdbg ->]|(Hdbg & -> & E)].
    - right. split; [exact Hdbg|]. split; [reflexivity|]. rewrite (ck_content _ _ G). cks.
      apply sem_seq; [exact H0|]. unfold tok_sym. destruct (junk (tk_kind tok)).
      + apply sem_seq_skip; [apply sem_opt_nil|]. exact H1.
      + apply sem_seq_cons; [|exact H1]. apply sem_opt, sem_anytok.
    - left. split; [|exact I]. unfold conforms. cbn [schema]. rewrite (ck_content _ _ G).
      rewrite drop_idem in Hd. rewrite Hd in E. apply at_cons in E. rewrite E. sm.
  Qed.

  Lemma sx_postfix n r t c : n <= N -> is1 operands c t ->
    J n r [] t (parse_postfix_operators c) (fun a _ t => is1 operands a t).
  Proof.
    intros HN H. unfold parse_postfix_operators.
    apply J_many with (I := fun c _ t => is1 operands c t) (R := fun c _ t => is1 operands c t).
    - exact H.
    - intros c1 r1 t1 tok ts tr H1 _ _. apply is1_junk; [exact H1|reflexivity].
    - auto.
    - intros m c1 r1 t1 Hm _ H1 _ _. pose proof (drop_idem r1) as Hn. steps.
      + eapply J_bind; [apply sx_accessor; eauto; lia|]. cbv beta. intros. now apply J_ret.
      + eapply J_bind; [apply sx_indexer; eauto; lia|]. cbv beta. intros. now apply J_ret.
      + eapply J_bind; [apply sx_filter; eauto; lia|]. cbv beta. intros. now apply J_ret.
      + now apply J_ret.
  Qed.

  Lemma test_case (X : Type) (o : option kind) (p q : X) (P : X -> Prop) : P p -> P q ->
    P (match o with Some TK_SAME_AS | Some TK_DIVISIBLE_BY => p | _ => q end).
  Proof. intros Hp Hq. destruct o as [[]|]; assumption. Qed.

  Lemma sx_literal n r : n <= N -> J n r [] [] parse_twig_literal (fun a _ t => opt1 operands a t).
  Proof.
    assert (S : forall k c t, mem_kind k operands = true -> is1 [k] c t -> is1 operands c t).
    { intros k c t Hk H. eapply is1_sub; [exact H|]. cbn [forallb]. now rewrite Hk. }
    intros HN. unfold parse_twig_literal. step. step.
    { call sx_number. apply J_ret. eapply S; [|exact H]. reflexivity. }
    step. step. { call sx_string. apply J_ret. eapply S; [|exact H]. reflexivity. }
    step. step. { call sx_array. apply J_ret. eapply S; [|exact H]. reflexivity. }
    step. step. { call sx_null. apply J_ret. eapply S; [|exact H]. reflexivity. }
    step. step. { call sx_boolean. apply J_ret. eapply S; [|exact H]. reflexivity. }
    step. step. { call sx_hash. apply J_ret. eapply S; [|exact H]. reflexivity. }
    step. call sx_name. destruct a as [c|]; [|now apply J_ret]. cbn [opt1] in H. cbn [app].
    assert (H' : is1 operands c t) by (eapply S; [|exact H]; reflexivity).
    step. step.
    { eapply J_bind; [apply sx_function; eauto|]. cbv beta. intros. now apply J_ret. }
    step. step.
    { clear H'. prec. step. cbn [app]. norm. eapply J_bind; [apply sx_arrow; [lia|apply is1_self]|]. cbv beta. intros. now apply J_ret. }
    apply test_case.
    - norm. eapply J_bind; [apply sx_implicit; eauto|]. cbv beta. intros. now apply J_ret.
    - now apply J_ret.
  Qed.

  Ltac finj := repeat (rewrite ?app_nil_r; cbn [app]); eexists _, _; split; [reflexivity|now left].
  Lemma sx_conditional n r t c : n <= N -> just1 [TWIG_EXPRESSION] c t ->
    J n r [] t (parse_conditional_expression c)
      (fun a _ t' => match a with Some c' => just1 [TWIG_EXPRESSION] c' t' | None => just1 [TWIG_EXPRESSION] c t' end).
  Proof.
    intros HN H. unfold parse_conditional_expression. step. step; [|now apply J_ret]. apply just1_is1 in H.
    prec. step. call sx_expr. opts a H1; cbn [is_none].
    - step. cbn [when]. step. step. step.
      + call sx_expr. opts a H2; cbn [is_none]; steps. prec. steps. apply J_ret. finj.
      + step. step. cbn [app]. prec. steps. apply J_ret. finj.
    - step. step. destruct (l_at TK_COLON r1) eqn:Ec; cbn [negb]; step; cbn [when]; step.
      step. rewrite Ec. call sx_expr. opts a H1; cbn [is_none]; steps. prec. steps. apply J_ret. finj.
  Qed.

  Lemma binary_in k l : binary_binding_power k = Some l -> mem_kind k binary_operators = true.
  Proof. destruct k; try discriminate; reflexivity. Qed.

  Lemma sx_binary n r t c bp : n <= N -> just1 [TWIG_EXPRESSION] c t ->
    J n r [] t (binary_loop bp c)
      (fun x _ t => just1 (if snd x : bool then [TWIG_BINARY_EXPRESSION] else [TWIG_EXPRESSION]) (fst x) t).
  Proof.
    intros HN H. unfold binary_loop.
    apply J_iter with (I := fun x _ t => just1 (if snd x : bool then [TWIG_BINARY_EXPRESSION] else [TWIG_EXPRESSION]) (fst x) t).
    - exact H.
    - clear c t H. intros m [c b] r1 t Hm _ H. cbn [fst snd] in H. step.
      destruct (hd_error r0) as [tok|] eqn:Ht; [|now apply J_ret].
      destruct (binary_binding_power (tk_kind tok)) as [[lb rb]|] eqn:Eb; [|now apply J_ret].
      step; [now apply J_ret|]. step. cbn [hd_error] in Ht. injection Ht as ->. apply binary_in in Eb.
      assert (H' : just1 [TWIG_EXPRESSION; TWIG_BINARY_EXPRESSION] c t)
        by (destruct H as (k & cs & -> & Hk); exists k, cs; split; [reflexivity|]; destruct b; destruct Hk as [<-|[]]; cbn; auto).
      destruct H' as (k & cs & -> & Hk). norm. apply J_precede with (o := []) (c := c) (nd := Node k cs). intros m0. cbn [map lock].
      assert (Hu : tk_kind tok <> TK_UNKNOWN) by (intros X; rewrite X in Eb; discriminate Eb).
      assert (Hs : sem (nd [TWIG_EXPRESSION; TWIG_BINARY_EXPRESSION]) [Nd k]) by (apply sem_one, in_map; exact Hk).
      call sx_exprj. assert (Ht1 := optj1_known _ _ _ H0). apply optj1_opt1 in H0.
      opts a H0; cbn [is_none]; steps;
        (eapply S_complete_known; [reflexivity|reflexivity|sm|repeat (constructor; auto)|]);
        intros cs'; apply J_ret; finj.
  Qed.

  Lemma sx_rhs n r t c bp : n <= N -> just1 [TWIG_EXPRESSION] c t ->
    J n r [] t (parse_twig_expression_binding_power_rhs bp c) (fun a _ t => just1 [TWIG_EXPRESSION] a t).
  Proof.
    intros HN H. unfold parse_twig_expression_binding_power_rhs.
    eapply J_bind; [apply sx_binary; eauto|]. cbv beta. intros [c1 b] r1 t1 _ H1. cbn [fst snd] in H1.
    assert (L : forall c r t, just1 [TWIG_EXPRESSION] c t ->
      J n r [] t (if Nat.eqb bp 0 then c0 <- parse_conditional_expression c ;; match c0 with Some m => Ret m | None => Ret c end
                  else Ret c) (fun a _ t => just1 [TWIG_EXPRESSION] a t)).
    { intros c2 r2 t2 H2. step; [|now apply J_ret]. eapply J_bind; [apply sx_conditional; eauto|]. cbv beta.
      intros [c3|] r3 t3 _ H3; now apply J_ret. }
    step.
    - apply just1_is1 in H1. prec. step. cbn [app]. apply L. finj.
    - apply L. exact H1.
  Qed.

  Lemma sx_unary n r : n <= N -> drop_trivia r = r -> l_at_set [TK_MINUS; TK_PLUS; TK_NOT; TK_TRIPLE_DOT] r = true ->
    J n r [] [] parse_unary_expression (fun a _ t => is1 [TWIG_UNARY_EXPRESSION] a t).
  Proof.
    intros HN Hn E. unfold parse_unary_expression. steps.
    destruct (unary_binding_power (tk_kind tok)); [|apply J_tail; apply J_fail].
    call sx_expr. opts a H; steps; apply J_ret; fin.
  Qed.

  (** What follows an opening parenthesis; [true]: a name that begins the parameters of an arrow function. *)
  Lemma sx_paren_inner n r (b : bool) : n <= N ->
    J n r [] []
      (if b then
         on <- parse_twig_name ;;
         match on with
         | Some lit_m =>
           a <- (c <- at_ TK_COMMA ;; if c then Ret true else at_following [TK_CLOSE_PARENTHESIS; TK_EQUAL_GREATER_THAN]) ;;
           if a : bool then Ret true else
           lit_m <- (If at_ TK_OPEN_PARENTHESIS Then parse_twig_function lit_m Else Ret lit_m) ;;
           lit_m <- parse_postfix_operators lit_m ;;
           expr_m <- precede lit_m ;;
           lhs <- complete expr_m TWIG_EXPRESSION ;;
           parse_twig_expression_binding_power_rhs 0 lhs ;;
           Ret false
         | None => parse_twig_expression_binding_power 0 ;; Ret false
         end
       else parse_twig_expression_binding_power 0 ;; Ret false)
      (fun a _ t => if a : bool then sem (nd [TWIG_LITERAL_NAME]) (ck t) else sem (opt expr) (ck t)).
  Proof.
    intros HN.
    assert (E : forall r, J n r [] [] (parse_twig_expression_binding_power 0 ;; Ret false)
      (fun (a : bool) _ t => if a then sem (nd [TWIG_LITERAL_NAME]) (ck t) else sem (opt expr) (ck t))).
    { intros r1. call sx_expr. apply J_ret. eapply opt1_sem; eassumption. }
    destruct b; [|apply E]. call sx_name. destruct a as [c|]; cbn [opt1] in H; [|subst; apply E].
    assert (H' : is1 operands c t) by (eapply is1_sub; [exact H|reflexivity]). cbn [app].
    assert (L : forall r, J n r [] t
      (lit_m <- (If at_ TK_OPEN_PARENTHESIS Then parse_twig_function c Else Ret c) ;;
       lit_m <- parse_postfix_operators lit_m ;;
       expr_m <- precede lit_m ;;
       lhs <- complete expr_m TWIG_EXPRESSION ;;
       parse_twig_expression_binding_power_rhs 0 lhs ;;
       Ret false)
      (fun (a : bool) _ t => if a then sem (nd [TWIG_LITERAL_NAME]) (ck t) else sem (opt expr) (ck t))).
    { intros r1.
      assert (K : forall r c t, is1 operands c t -> J n r [] t
        (lit_m <- parse_postfix_operators c ;;
         expr_m <- precede lit_m ;;
         lhs <- complete expr_m TWIG_EXPRESSION ;;
         parse_twig_expression_binding_power_rhs 0 lhs ;;
         Ret false)
        (fun (a : bool) _ t => if a then sem (nd [TWIG_LITERAL_NAME]) (ck t) else sem (opt expr) (ck t))).
      { intros r2 c2 t2 H2. eapply J_bind; [apply sx_postfix; eauto|]. cbv beta. intros c3 r3 t3 _ H3. prec. step.
        eapply J_bind; [apply sx_rhs; [lia|finj]|]. cbv beta. intros c4 r4 t4 _ H4. apply J_ret.
        apply just1_is1, is1_sem in H4. sm. }
      step. step.
      - eapply J_bind; [apply sx_function; eauto|]. cbv beta. intros. apply K. assumption.
      - cbn [bind]. apply K. assumption. }
    step. step.
    - cbn [bind]. apply J_ret. eapply is1_sem; eassumption.
    - step. destruct (l_following _ _); cbv beta iota zeta.
      + apply J_ret. eapply is1_sem; eassumption.
      + apply L.
  Qed.

  Lemma sx_lhs n r : n <= N -> J n r [] [] parse_twig_expression_lhs (fun a _ t => opt1 expressions a t).
  Proof.
    assert (S : forall c t, is1 operands c t -> is1 expressions c t).
    { intros c t H. eapply is1_sub; [exact H|reflexivity]. }
    intros HN. unfold parse_twig_expression_lhs. step. step; [|step; step].
    - unfold parse_paren_expression. do 4 step. norm.
      eapply J_app; [apply sx_paren_inner; lia|]. cbv beta. intros [] r1 t1 _ H1.
      + cbn [bind]. unfold parse_paren_arrow_function. norm. apply J_dassert. intros r2 _.
        norm. eapply J_app.
        { many (Many (comma >> opt name)). do 3 step.
          - apply J_ret. exact HI.
          - step. call sx_name. apply J_ret. apply opt1_sem in H. sm. }
        cbv beta. intros _ r3 t3 _ H3. steps. cbn [app].
        eapply J_bind; [apply sx_arrow; [lia|apply is1_self]|]. cbv beta. intros. apply J_ret. now apply S.
      + steps. cbn [app].
        eapply J_bind; [apply sx_postfix; [lia|apply is1_node; reflexivity]|]. cbv beta. intros. apply J_ret. now apply S.
    - eapply J_bind; [apply sx_unary; eauto|]. cbv beta. intros. apply J_ret. cbn [opt1].
      eapply is1_sub; [eassumption|reflexivity].
    - call sx_literal. destruct a as [c|]; cbn [opt1 app] in *; [|now apply J_ret].
      eapply J_bind; [apply sx_postfix; [lia|eassumption]|]. cbv beta. intros. apply J_ret. now apply S.
  Qed.

  Lemma sx_body_expression n r bp : n <= N ->
    J n r [] [] (body_expression bp) (fun a _ t => optj1 [TWIG_EXPRESSION] a t).
  Proof.
    intros HN. unfold body_expression. call sx_lhs. destruct a as [c|]; cbn [opt1 app] in *; [|now apply J_ret].
    prec. step. cbn [app]. eapply J_bind; [apply sx_rhs; [lia|finj]|]. cbv beta. intros. now apply J_ret.
  Qed.

End Expr.
