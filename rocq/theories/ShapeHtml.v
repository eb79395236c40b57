(** Trees of error-free parses, part 4: twig statements, html and the whole grammar. *)
From Coq Require Import NArith String Bool Arith Lia List.
Import ListNotations.
From Verif Require Import Text Kind Regex Lexer LexerProofs ParserApi GrammarExpr GrammarTags GrammarHtml
  Machine TreeMachine Simulation TreeSpec WpBase Total Schema Shape ShapeStrict ShapeExpr ShapeTags.
Local Notation length := List.length (only parsing).
Local Open Scope list_scope.
Local Open Scope prog_scope.
Local Open Scope cm_scope.

Section Html.
  Context (dbg : bool) (T : list token) (N : nat).
  Notation J := (SJ dbg T).
  Notation good := (gooditem (wf dbg)).
  Context (HC : forall m c r, m < N -> J m r [] [] (body c) (Rc c)).
  Ltac done := apply J_ret; fin.

  (** * Comments and output *)
  Lemma sh_rules n r closing : mem_kind TK_UNKNOWN closing = false ->
    J n r [] [] (parse_many (at_set closing) (expect TK_WORD (TK_COMMA :: closing) ;; opt_bump TK_COMMA))
      (fun _ _ t => sem (Many (tk [TK_WORD] >> opt comma)) (ck t)).
  Proof.
    intros Hu. many (Many (tk [TK_WORD] >> opt comma)). do 3 step; [now apply J_ret|]. call st_opt_bump.
    apply J_ret. cks. apply sem_many_app; [exact HI|]. apply sem_many_one.
    apply sem_seq_cons; [now apply sem_tk_mem|exact H].
  Qed.
  Lemma sh_directive n r m tr ko tko closing :
    drop_trivia r = r -> l_at_set [TK_LUDTWIG_IGNORE_FILE; TK_LUDTWIG_IGNORE] r = true ->
    mem_kind TK_UNKNOWN closing = false ->
    (forall kw l, sem (tk [kw] >> nd [LUDTWIG_DIRECTIVE_RULE_LIST] >> tk closing) l -> sem (directive kw) (tok_sym ko ++ l)) ->
    (forall k, mem_kind k closing = true -> junk k = false) ->
    J n r [(m, [])] [ITok tr ko [tko]] (parse_ludtwig_directive m closing)
      (fun a _ t => is1 [LUDTWIG_DIRECTIVE_IGNORE; LUDTWIG_DIRECTIVE_FILE_IGNORE] a t).
  Proof.
    intros Hn E Hu Hd Hj. unfold parse_ludtwig_directive. step. step. set (file := l_at TK_LUDTWIG_IGNORE_FILE r).
    assert (Hf : exists tok ts, r = tok :: ts /\ tk_kind tok = if file then TK_LUDTWIG_IGNORE_FILE else TK_LUDTWIG_IGNORE).
    { unfold file. destruct r as [|tok ts]; [discriminate|]. exists tok, ts. split; [reflexivity|]. cbn [l_at l_at_set] in *.
      destruct (kind_eqb (tk_kind tok) TK_LUDTWIG_IGNORE_FILE) eqn:Ek; [now apply kind_eqb_eq|].
      apply mem_kind_in in E as [X|[X|[]]]; [|now symmetry]. rewrite <- X in Ek. discriminate. }
    clearbody file. destruct Hf as (tok & ts & -> & Hk). step. step.
    eapply J_app; [apply sh_rules; exact Hu|]. cbv beta. intros _ r1 t1 _ H1. step. step.
    rewrite Hk. destruct file.
    - apply J_tail. eapply S_complete; [reflexivity|reflexivity| |intros cs'; done].
      cks. apply Hd. apply sem_seq_cons; [now apply sem_tk_mem|]. apply sem_seq_cons; [now apply sem_nd_mem|].
      rewrite tok_plain by auto. now apply sem_tk_mem.
    - apply J_tail. eapply S_complete; [reflexivity|reflexivity| |intros cs'; done].
      cks. apply Hd. apply sem_seq_cons; [now apply sem_tk_mem|]. apply sem_seq_cons; [now apply sem_nd_mem|].
      rewrite tok_plain by auto. now apply sem_tk_mem.
  Qed.
  Lemma sh_any_tokens n r (close : list token -> bool) :
    J n r [] [] (parse_many (look close) (bump ;; Ret tt)) (fun _ _ t => sem (Many AnyTok) (ck t)).
  Proof.
    many (Many AnyTok). do 3 step; [now apply J_ret|]. do 2 step. apply J_ret. cks. apply sem_many_app; [exact HI|apply tok_any].
  Qed.
  Ltac stmt := eapply is1_sub; [eassumption|reflexivity].

  Lemma sh_plain_comment n r m tr ko tko : mem_kind ko TWIG_COMMENT_OPEN_SET = true ->
    J n r [(m, [])] [ITok tr ko [tko]] (parse_twig_plain_comment m) (fun a _ t => is1 [TWIG_COMMENT] a t).
  Proof.
    intros Hko. unfold parse_twig_plain_comment. eapply J_app; [apply sh_any_tokens|]. cbv beta. intros _ r1 t1 _ H1.
    do 3 step. done.
  Qed.
  Lemma sh_comment n r : drop_trivia r = r -> l_at_set TWIG_COMMENT_OPEN_SET r = true ->
    J n r [] [] parse_twig_comment_statement (fun a _ t => is1 twig_statements a t).
  Proof.
    intros Hn E. unfold parse_twig_comment_statement. do 4 step. cbn [app]. step.
    - eapply J_mono; [eapply sh_directive; [assumption|assumption|reflexivity| |]|].
      + intros kw l Hl. apply sem_alt_l. apply sem_seq; [apply tok_in; [exact E|reflexivity]|exact Hl].
      + intros k Hk. eapply mem_plain; [exact Hk|reflexivity].
      + cbv beta. intros a r1 t1 _ H. stmt.
    - eapply J_mono; [apply sh_plain_comment; exact E|]. cbv beta. intros a r1 t1 _ H. stmt.
  Qed.
  Lemma sh_var n r : n <= N -> drop_trivia r = r -> l_at_set TWIG_VAR_OPEN_SET r = true ->
    J n r [] [] parse_twig_var_statement (fun a _ t => is1 [TWIG_VAR] a t).
  Proof.
    intros HN Hn E. unfold parse_twig_var_statement. do 3 step. call st_expression_or. do 3 step. done.
  Qed.
  Lemma sh_any_twig n r f : n <= N -> J n r [] [] (parse_any_twig f) (fun a _ t => opt1 twig_statements a t).
  Proof.
    intros HN. unfold parse_any_twig. step. step; [eapply st_statement; eassumption|]. step. step.
    { eapply J_app; [apply sh_var; assumption|]. cbv beta. intros a r1 t1 _ H. apply J_ret. cbn [app opt1]. stmt. }
    step. step; [|now apply J_ret].
    eapply J_app; [apply sh_comment; assumption|]. cbv beta. intros a r1 t1 _ H. apply J_ret. exact H.
  Qed.

  (** * Text, comments and strings *)
  Lemma sh_doctype n r : drop_trivia r = r -> l_at TK_LESS_THAN_EXCLAMATION_MARK r = true ->
    J n r [] [] parse_html_doctype (fun a _ t => is1 [HTML_DOCTYPE] a t).
  Proof. intros Hn E. unfold parse_html_doctype. do 8 step. done. Qed.
  Lemma sh_some_tokens n r : drop_trivia r = r -> l_at_end r || l_html_text_end r = false ->
    J n r [] [] (parse_many (look l_html_text_end) (bump ;; Ret tt)) (fun _ _ t => sem (Many AnyTok) (ck t) /\ flat_map item_trees t <> []).
  Proof.
    intros Hr E. apply orb_false_iff in E as [E1 E2]. unfold parse_many.
    assert (X : forall t tr k tk, flat_map item_trees (t ++ [ITok tr k tk]) <> []).
    { intros t tr k tk Y. rewrite flat_map_app in Y. apply app_eq_nil in Y as [_ Y]. cbn in Y. apply app_eq_nil in Y as [Y _].
      apply app_eq_nil in Y as [_ Y]. discriminate Y. }
    apply J_many_end with (I := fun _ r1 t => sem (Many AnyTok) (ck t) /\ (flat_map item_trees t = [] -> drop_trivia r1 = r)).
    - split; [apply sem_many_nil|auto].
    - intros [] r1 t tok ts tr [H1 _] _ _. split; [cks; exact H1|]. intros Y. destruct (X _ _ _ _ Y).
    - intros [] r1 t [H1 H2] Hd. split; [exact H1|]. intros Y. rewrite (H2 Y) in Hd. rewrite Hd in E1. discriminate E1.
    - intros m [] r1 t Hm _ [H1 H2] _ _. pose proof (drop_idem r1) as Hn. revert H2 Hn. generalize (drop_trivia r1). intros r2 H2 Hn. step. step. cbn [fst snd]. step.
      + apply J_ret. split; [exact H1|]. intros Y. specialize (H2 Y). congruence.
      + do 2 step. apply J_ret.
        split; split; try (cks; apply sem_many_app; [exact H1|apply tok_any]); [|apply X]. intros Y. destruct (X _ _ _ _ Y).
  Qed.
  Lemma sh_text n r : J n r [] [] parse_html_text (fun a _ t => opt1 [HTML_TEXT] a t).
  Proof.
    unfold parse_html_text. step. step; [now apply J_ret|]. step. norm. eapply J_app; [apply sh_some_tokens; assumption|]. cbv beta.
    intros _ r1 t1 _ [H1 H2]. norm. eapply S_complete_P with (P := fun _ => True); [reflexivity|exact H1| |intros cs _; done].
    intros _ _. split; [|exact I]. exact H2.
  Qed.
  Lemma sh_plain_html_comment n r m tr tko :
    J n r [(m, [])] [ITok tr TK_LESS_THAN_EXCLAMATION_MARK_MINUS_MINUS [tko]] (parse_plain_html_comment m)
      (fun a _ t => is1 [HTML_COMMENT] a t).
  Proof.
    unfold parse_plain_html_comment. eapply J_app; [apply sh_any_tokens|]. cbv beta. intros _ r1 t1 _ H1. do 3 step. done.
  Qed.
  Lemma sh_html_comment n r : drop_trivia r = r -> l_at TK_LESS_THAN_EXCLAMATION_MARK_MINUS_MINUS r = true ->
    J n r [] [] parse_html_comment (fun a _ t => is1 (HTML_COMMENT :: twig_statements) a t).
  Proof.
    intros Hn E. unfold parse_html_comment. do 4 step. cbn [app]. step.
    - eapply J_mono; [eapply sh_directive; [assumption|assumption|reflexivity| |]|].
      + intros kw l Hl. apply sem_alt_r. apply sem_seq; [apply sem_tk_mem; reflexivity|exact Hl].
      + intros k Hk. eapply mem_plain; [exact Hk|reflexivity].
      + cbv beta. intros a r1 t1 _ H. stmt.
    - eapply J_mono; [apply sh_plain_html_comment|]. cbv beta. intros a r1 t1 _ H. stmt.
  Qed.

  (** Tokens and twig statements in between: raw text and attribute values. *)
  Notation mixed := (Many (AnyTok <|> nd twig_statements)).
  Lemma opt1_mixed a t : opt1 twig_statements a t -> sem mixed (ck t).
  Proof.
    intros H. opts a H; [|apply sem_many_nil]. apply sem_many_one. now right.
  Qed.
  Lemma sh_string_child n r f : n <= N -> J n r [] [] (html_string_child f) (fun _ _ t => sem mixed (ck t)).
  Proof.
    intros HN. unfold html_string_child. eapply J_app; [apply sh_any_twig; exact HN|]. cbv beta. intros a r1 t1 _ H.
    apply opt1_mixed in H. destruct (is_none a); cbn [when]; [|apply J_ret; exact H].
    step. step; [apply J_ret; exact H|]. step. apply J_ret. cks. apply sem_many_app; [exact H|apply tok_any_alt].
  Qed.
  Lemma sh_inner n r close f : n <= N ->
    J n r [] [] (parse_many (look close) (html_string_child f)) (fun _ _ t => sem mixed (ck t)).
  Proof.
    intros HN. many mixed. step. step. step; [now apply J_ret|]. norm. eapply J_app; [apply sh_string_child; lia|]. cbv beta.
    intros [] r1 t1 _ H1. apply J_ret. cks. now apply sem_many_app.
  Qed.
  Lemma sh_double n r : n <= N -> J n r [] [] inner_double_quote_parser (fun _ _ t => sem mixed (ck t)).
  Proof.
    intros HN. unfold inner_double_quote_parser. eapply J_app; [apply sh_inner; exact HN|]. cbv beta. intros _ r1 t1 _ H.
    now apply J_ret.
  Qed.
  Lemma sh_single n r : n <= N -> J n r [] [] inner_single_quote_parser (fun _ _ t => sem mixed (ck t)).
  Proof.
    intros HN. unfold inner_single_quote_parser. eapply J_app; [apply sh_inner; exact HN|]. cbv beta. intros _ r1 t1 _ H.
    now apply J_ret.
  Qed.
  Definition plain (l : list sym) : Prop := l = [Tok TK_WORD] \/ l = [Nd TWIG_VAR].
  Lemma sh_no_quote n r : n <= N -> J n r [] [] inner_no_quote_parser (fun _ _ t => sem mixed (ck t) /\ plain (ck t)).
  Proof.
    intros HN. unfold inner_no_quote_parser. step. step.
    { step. apply J_ret. split; [cks; apply sem_many_one; left; apply sem_anytok|left; reflexivity]. }
    step. step; [|step]. eapply J_app; [apply sh_var; assumption|]. cbv beta. intros a r1 t1 _ H. apply J_ret.
    apply is1_sem in H. cbn [app]. split; [apply sem_many_one; right; eapply sem_nd_incl; [exact H|reflexivity]|].
    right. destruct H as (s & -> & [<-|[]]). reflexivity.
  Qed.
  Lemma S_complete_quoted (A : Set) n r m saved segs q t (g : nat -> prog A) (R : res_spec A) :
    sem (between_quotes HTML_STRING_INNER) (ck t) -> In (Tok q) (ck t) -> Forall known_item t ->
    (forall cs, J n r segs (saved ++ [INode m (Node HTML_STRING cs)]) (g m) R) ->
    J n r ((m, saved) :: segs) t (bind (complete m HTML_STRING) g) R.
  Proof.
    intros H1 H2 H3 H. eapply S_complete_P with (P := fun _ => True); [reflexivity|left; exact H1| |intros cs _; apply H].
    intros G Hc. split; [|exact I]. split; [eapply known_trees; eauto|]. intros X. rewrite Hc in X. rewrite X in H2. destruct H2 as [H2|[]]. discriminate H2.
  Qed.
  Lemma sh_value n r : n <= N -> J n r [] [] parse_html_attribute_value_string (fun a _ t => is1 [HTML_STRING] a t).
  Proof.
    intros HN. unfold parse_html_attribute_value_string. step. step. step.
    - step. step. step. cbn [l_at_set] in *. apply mem_kind_in in Heqb as [X|[X|[]]]; rewrite <- X.
      + norm. eapply J_app; [apply sh_double; exact HN|]. cbv beta. intros _ r1 t1 _ H1. cbn [is_some is_none negb when bind].
        steps.
        eapply S_complete_quoted with (q := TK_DOUBLE_QUOTES); [sm|cks; cbn; auto|repeat constructor; discriminate|]. intros cs'. done.
      + norm. eapply J_app; [apply sh_single; exact HN|]. cbv beta. intros _ r1 t1 _ H1. cbn [is_some is_none negb when bind].
        steps.
        eapply S_complete_quoted with (q := TK_SINGLE_QUOTES); [sm|cks; cbn; auto|repeat constructor; discriminate|]. intros cs'. done.
    - step. step. norm. eapply J_app; [apply sh_no_quote; exact HN|]. cbv beta. intros _ r1 t1 _ [H1 H2].
      cbn [is_some is_none negb when bind]. norm. eapply S_complete_P with (P := fun cs => plain (content cs)); [reflexivity|exact H1| |].
      { intros G Hc. split; [exact I|]. rewrite Hc. exact H2. }
      intros cs Hcs. steps.
      eapply S_complete_P with (P := fun _ => True); [reflexivity| | |intros cs' _; done]; [sm|].
      intros G Hc. split; [|exact I]. split; [eapply known_trees; [exact G|repeat constructor; discriminate]|].
      intros _ i Hi. cbn in Hi. destruct Hi as [<-|[]]. exact Hcs.
  Qed.

  (** * Attributes *)
  Lemma sh_attribute_rest n r m t : n <= N -> sem (tk [TK_WORD] <|> nd [TWIG_VAR]) (ck t) ->
    J n r [(m, [])] t (parse_html_attribute_rest m) (fun a _ t => opt1 [HTML_ATTRIBUTE] a t).
  Proof.
    intros HN Ht. unfold parse_html_attribute_rest. step. step.
    - step. norm. eapply J_app; [apply sh_value; exact HN|]. cbv beta. intros a r1 t1 _ H. apply is1_sem in H. steps. done.
    - step. steps; [apply sem_seq_last; [exact Ht|apply sem_opt_nil]|done].
  Qed.
  Lemma sh_attr n r : n <= N -> J n r [] [] body_attr (fun a _ t => opt1 (HTML_ATTRIBUTE :: twig_statements) a t).
  Proof.
    intros HN. unfold body_attr. step. destruct (l_attr_text r0) as [text|]; [|now apply J_ret].
    assert (L : forall a t, opt1 [HTML_ATTRIBUTE] a t -> opt1 (HTML_ATTRIBUTE :: twig_statements) a t).
    { intros [a|] t H; [|exact H]. cbn [opt1] in *. stmt. }
    destruct (rfull HTML_ATTRIBUTE_NAME_REGEX text).
    - step. step. step.
      + norm. apply J_bump_n. intros tr _. step. eapply J_mono; [apply sh_attribute_rest; [exact HN|]|auto]. cks.
        left. apply sem_tk_mem. reflexivity.
      + step. step. eapply J_mono; [apply sh_attribute_rest; [exact HN|]|auto]. cks. left. apply sem_tk_mem. reflexivity.
    - step. step.
      + step. norm. eapply J_app; [apply sh_var; assumption|]. cbv beta. intros a r1 t1 _ H. apply is1_sem in H. cbn [app].
        eapply J_mono; [apply sh_attribute_rest; [exact HN|now right]|auto].
      + eapply J_mono; [apply sh_any_twig; exact HN|]. cbv beta. intros [a|] r1 t1 _ H; [|exact H]. cbn [opt1] in *. stmt.
  Qed.
  Lemma sh_attributes n r : n <= N ->
    J n r [] [] parse_attribute_list (fun _ _ t => node1 HTML_ATTRIBUTE_LIST any_tree t).
  Proof.
    intros HN. unfold parse_attribute_list. step. norm. eapply J_app.
    { eapply (st_children dbg T N HC n r _ PFAttr HN). intros n1 r1. apply J_tail. step. now apply J_ret. }
    cbv beta. intros _ r1 t1 _ H1. step. apply J_ret. exists m, cs. split; [reflexivity|exact I].
  Qed.

  (** * Elements *)
  Notation end_follows tag_kind tag_name r :=
    (l_following_content [(TK_LESS_THAN_SLASH, None); (tag_kind, Some tag_name)] (drop_trivia r) = true).
  Lemma sh_raw_inner n r : n <= N -> J n r [] [] body_raw_inner (fun _ _ t => sem (Many (nd [HTML_RAW_TEXT])) (ck t)).
  Proof.
    intros HN. unfold body_raw_inner. step. norm. eapply J_app with (R1 := fun _ _ t => sem mixed (ck t)).
    { many mixed. step. step. step; [now apply J_ret|]. norm. eapply J_app; [apply sh_any_twig; lia|]. cbv beta.
      intros a r1 t1 _ H. apply opt1_mixed in H. destruct (is_none a); cbn [when].
      - norm. apply J_bump_site. intros tok ts tr Hd. step. apply J_ret. cks.
        apply sem_many_app; [exact HI|]. apply sem_many_app; [exact H|apply tok_any_alt].
      - step. apply J_ret. cks. now apply sem_many_app. }
    cbv beta. intros _ r1 t1 _ H1. steps. apply J_ret. cks. apply sem_many_one. apply sem_nd_mem. reflexivity.
  Qed.
  Lemma sh_early n r t tag_kind tag_name met (R : res_spec (bool * bool)) : drop_trivia r = r ->
    (end_follows tag_kind tag_name r -> R (true, true) r t) ->
    (forall b, R (b, met) r t) ->
    J n r [] t (early_end_tag tag_kind tag_name met) R.
  Proof.
    intros Hn H1 H2. unfold early_end_tag. step. step.
    - apply J_ret. rewrite Hn in H1. auto.
    - step. apply J_ret. auto.
  Qed.
  (** Children up to the ending tag; [true] is returned in front of it only. *)
  Lemma sh_until_end n r tag_kind tag_name child M : 
    (forall m r met, m <= n -> J m r [] [] (child met) (fun x _ t => x = met /\ sem (Many M) (ck t))) ->
    J n r [] [] (parse_many_st (early_end_tag tag_kind tag_name) child false)
      (fun met r t => (met = true -> end_follows tag_kind tag_name r) /\ sem (Many M) (ck t)).
  Proof.
    intros Hc. apply J_many with (I := fun met _ t => met = false /\ sem (Many M) (ck t)).
    - split; [reflexivity|apply sem_many_nil].
    - intros x r1 t tok ts tr [-> H] _ _. split; [reflexivity|]. cks. exact H.
    - intros x r1 r2 t [-> H]. split; [discriminate|exact H].
    - intros m x r1 t Hm G [-> HI] _ _. pose proof (drop_idem r1) as Hn. revert Hn. generalize (drop_trivia r1). intros r2 Hn.
      eapply J_bind; [eapply sh_early with (R := fun y r' t' =>
         (snd y = true -> fst y = true /\ end_follows tag_kind tag_name r') /\ t' = t); [exact Hn| |]|].
      + intros H. split; [|reflexivity]. intros _. split; [reflexivity|exact H].
      + intros b. split; [|reflexivity]. discriminate.
      + cbv beta. intros [b x] r3 t3 _ [Hx ->]. cbn [fst snd] in *. destruct b.
        * apply J_ret. split; [|exact HI]. intros E. now apply Hx.
        * eapply J_app; [apply Hc; exact Hm|]. cbv beta. intros x' r4 t4 _ [-> H4]. apply J_ret.
          split; [|cks; now apply sem_many_app]. destruct x; [|reflexivity]. destruct Hx as [X _]; [reflexivity|discriminate].
  Qed.
  Lemma sh_raw_text n r tag_kind tag_name : n <= N ->
    J n r [] [] (parse_html_raw_text tag_kind tag_name)
      (fun met r t => (met = true -> end_follows tag_kind tag_name r) /\ sem (Many (nd [HTML_RAW_TEXT])) (ck t)).
  Proof.
    intros HN. unfold parse_html_raw_text. step. norm. eapply J_app.
    { apply sh_until_end with (M := AnyTok <|> nd twig_statements). intros n1 r1 met Hn1.
      eapply J_app; [apply sh_any_twig; lia|]. cbv beta. intros a r2 t2 _ H. apply opt1_mixed in H.
      destruct (is_none a); cbn [when].
      - norm. apply J_bump_site. intros tok ts tr Hd. step. apply J_ret. split; [reflexivity|]. cks.
        apply sem_many_app; [exact H|apply tok_any_alt].
      - step. apply J_ret. split; [reflexivity|exact H]. }
    cbv beta. intros met r1 t1 _ [Hm H1]. step. apply J_ret. split; [exact Hm|]. cks. apply sem_many_one. apply sem_nd_mem.
    reflexivity.
  Qed.
  Lemma sh_ending_tag n r tag_kind tag_name met : (met = true -> end_follows tag_kind tag_name r) ->
    J n r [] [] (parse_html_ending_tag tag_kind tag_name met)
      (fun _ _ t => node1 HTML_ENDING_TAG (fun cs => first_name cs = Some tag_name) t).
  Proof.
    intros Hf. unfold parse_html_ending_tag. step. step; [|step]. specialize (Hf eq_refl).
    assert (exists u us v, drop_trivia r = u :: us /\ hd_error (drop_trivia us) = Some v /\ tk_text v = tag_name) as (u & us & v & Hu & Hv & Ht).
    { unfold l_following_content in Hf. remember (drop_trivia r) as r0 eqn:Er. destruct r0 as [|u0 us0]; [discriminate|].
      apply follow_drop in Hf as (u & us & Hu & _ & _ & Hf). apply follow_drop in Hf as (v & vs & Hv & _ & Ht & _).
      rewrite Er, drop_idem, <- Er in Hu. exists u, us, v. rewrite Hv. auto. }
    clear Hf. step. rewrite Hu in Hd. injection Hd as <- <-. norm. apply S_look. intros r1 Hr Hn. rewrite Hr in Hv.
    destruct r1 as [|v' vs]; [discriminate|]. injection Hv as ->.
    assert (Fin : forall r2 k tr1, is_name k = true -> mem_kind k [TK_WORD; TK_TWIG_COMPONENT_NAME] = true -> junk k = false ->
      J n r2 [(m, [])] ([ITok tr TK_LESS_THAN_SLASH [u]] ++ [ITok tr1 k [v]])
        (expect TK_GREATER_THAN [] ;; complete m HTML_ENDING_TAG ;; Ret tt)
        (fun _ _ t => node1 HTML_ENDING_TAG (fun cs => first_name cs = Some tag_name) t)).
    { clear Hk. intros r2 k tr1 Hk Hk' Hj. step. cbn [app].
      eapply S_complete_P with (P := fun cs => first_name cs = Some tag_name); [reflexivity| | |].
      - cks. rewrite (tok_plain k) by exact Hj. apply sem_seq_cons; [apply sem_tk_mem; reflexivity|].
        apply sem_seq_cons; apply sem_tk_mem; [exact Hk'|reflexivity].
      - intros G _. split; [exact I|]. rewrite (first_name_trees _ _ G). cbn [item_name].
        change (is_name TK_LESS_THAN_SLASH) with false. cbv iota. rewrite Hk. cbn [map concat]. now rewrite app_nil_r, Ht.
      - intros cs Hcs. apply J_ret. exists m, cs. auto. }
    cbn [app] in *. step.
    - norm. apply J_bump. intros tok ts tr1 Hd. rewrite Hn in Hd. injection Hd as <- <-. apply at_cons in Heqb0. rewrite Heqb0.
      norm. cbn [bind]. norm. apply Fin; reflexivity.
    - norm. apply S_look_nf; [exact Hn|]. step; [|step]. norm. apply J_bump_as. intros tok ts tr1 Hd.
      rewrite Hn in Hd. injection Hd as <- <-. norm. cbn [bind]. norm. apply Fin; reflexivity.
  Qed.

  Lemma existsb_void x : existsb (text_eqb x) HTML_VOID_ELEMENTS = true <-> In x void_elements.
  Proof.
    change HTML_VOID_ELEMENTS with void_elements. rewrite existsb_exists. split.
    - intros (y & Hy & E). apply text_eqb_eq in E. now subst y.
    - intros H. exists x. split; [exact H|]. now apply text_eqb_eq.
  Qed.
  Lemma sh_tag_name n r set : drop_trivia r = r ->
    J n r [] []
      (if kind_eqb (match hd_error r with Some t => tk_kind t | None => TK_WORD end) TK_TWIG_COMPONENT_NAME then bump ;; Ret tt
       else if rfull HTML_TAG_NAME_REGEX (match hd_error r with Some t => tk_text t | None => [] end) then bump_as TK_WORD ;; Ret tt
       else add_error "HTML Tag Name" ;; recover set)
      (fun _ _ t => exists v k tr, hd_error r = Some v /\ t = [ITok tr k [v]] /\ mem_kind k [TK_WORD; TK_TWIG_COMPONENT_NAME] = true).
  Proof.
    intros Hn. destruct r as [|v vs]; cbn [hd_error].
    - change (kind_eqb TK_WORD TK_TWIG_COMPONENT_NAME) with false.
      replace (rfull HTML_TAG_NAME_REGEX []) with false by (vm_compute; reflexivity). step.
    - destruct (kind_eqb (tk_kind v) TK_TWIG_COMPONENT_NAME) eqn:E.
      + apply kind_eqb_eq in E. apply J_bump. intros tok ts tr Hd. rewrite Hn in Hd. injection Hd as <- <-. rewrite E.
        apply J_ret. eexists v, _, tr. repeat split.
      + destruct (rfull HTML_TAG_NAME_REGEX (tk_text v)); [|step]. apply J_bump_as. intros tok ts tr Hd.
        rewrite Hn in Hd. injection Hd as <- <-. apply J_ret. eexists v, _, tr. repeat split.
  Qed.
  Lemma sh_element n r : n <= N -> drop_trivia r = r -> l_at TK_LESS_THAN r = true ->
    J n r [] [] parse_html_element (fun a _ t => is1 [HTML_TAG] a t).
  Proof.
    intros HN Hn E. unfold parse_html_element. do 4 step. norm. apply S_look. intros r1 _ Hn1. cbv zeta.
    eapply J_app; [apply sh_tag_name; exact Hn1|]. cbv beta. intros _ r2 t2 _ (v & k & tr2 & -> & -> & Hk). clear r1 Hn1.
    eapply J_app; [apply sh_attributes; exact HN|]. cbv beta. intros _ r3 t3 _ (c3 & cs3 & -> & _).
    eapply J_app with (R1 := fun b _ t => exists tr v, t = [ITok tr (if b : bool then TK_SLASH_GREATER_THAN else TK_GREATER_THAN) [v]]).
    { step. step; step; steps; apply J_ret; eexists _, _; reflexivity. }
    cbv beta. intros b r4 t4 _ (tr4 & v4 & ->). cbn [app].
    set (name := tk_text v). set (lname := map to_lower_ascii name).
    eapply S_complete_P with (P := fun cs => first_name cs = Some name /\
      (In (Tok TK_SLASH_GREATER_THAN) (content cs) <-> b = true)); [reflexivity| | |].
    { cks. rewrite (tok_plain k) by (eapply mem_plain; [exact Hk|reflexivity]).
      apply sem_seq_cons; [apply sem_tk_mem; reflexivity|]. apply sem_seq_cons; [apply sem_tk_mem; exact Hk|].
      apply sem_seq_cons; [apply sem_nd_mem; reflexivity|]. destruct b; apply sem_tk_mem; reflexivity. }
    { intros G Hc. split; [exact I|]. split.
      - rewrite (first_name_trees _ _ G). cbn [item_name]. change (is_name TK_LESS_THAN) with false. cbv iota.
        replace (is_name k) with true by (apply mem_kind_in in Hk as [<-|[<-|[]]]; reflexivity). cbn [map concat]. now rewrite app_nil_r.
      - rewrite Hc. cks. rewrite (tok_plain k) by (eapply mem_plain; [exact Hk|reflexivity]). cbn [app In]. split.
        + intros [X|[X|[X|X]]]; try discriminate X.
          * injection X as ->. discriminate.
          * apply tok_sym_in in X. destruct b; [reflexivity|discriminate].
        + intros ->. right. right. right. now left. }
    intros cs1 [Hname Hself]. cbn [app].
    destruct (b || existsb (text_eqb lname) HTML_VOID_ELEMENTS) eqn:Es.
    - apply J_tail. eapply S_complete_P with (P := fun _ => True); [reflexivity|sm| |intros cs6 _; done].
      intros _ _. split; [|exact I]. cbn [agrees]. rewrite nodes_trees. cbn [app flat_map item_nodes nodes filter].
      exists name. split; [exact Hname|]. apply orb_true_iff in Es as [->|Es].
      + left. now apply Hself.
      + right. now apply existsb_void.
    - apply orb_false_iff in Es as [-> Es]. step. norm.
      eapply J_app with (R1 := fun met r t => (met = true -> end_follows (tk_kind v) name r) /\
         sem (Many (nd elements) <|> Many (nd [HTML_RAW_TEXT]) <|> Many (nd (HTML_ATTRIBUTE :: twig_statements)) <|> mixed) (ck t)).
      { destruct (existsb (text_eqb lname) HTML_RAW_TEXT_ELEMENTS).
        - eapply J_mono; [apply sh_raw_text; exact HN|]. cbv beta. intros a r5 t5 _ [H1 H2]. split; [exact H1|]. right. now left.
        - eapply J_mono.
          + apply sh_until_end with (M := nd elements). intros n1 r1 met Hn1.
            eapply J_app; [apply (st_call_child dbg T N HC); lia|]. cbv beta. intros [] r5 t5 _ H5. apply J_ret. auto.
          + cbv beta. intros a r5 t5 _ [H1 H2]. split; [exact H1|]. now left. }
      cbv beta. intros met r5 t5 _ [Hmet H5]. cbn [app].
      eapply S_complete; [reflexivity|reflexivity|exact H5|]. intros cs5. cbn [app].
      eapply J_app; [apply sh_ending_tag; exact Hmet|]. cbv beta. intros _ r6 t6 _ (c6 & cs6 & -> & H6).
      apply J_tail. eapply S_complete_P with (P := fun _ => True); [reflexivity|sm| |intros cs7 _; done].
      intros _ _. split; [|exact I]. cbn [agrees]. rewrite nodes_trees. cbn [app flat_map item_nodes nodes filter].
      exists name. split; [exact Hname|]. split; [exact H6|]. split.
      + intros X. apply Hself in X. discriminate.
      + intros X. apply existsb_void in X. change (map to_lower_ascii name) with lname in X. rewrite Es in X. discriminate.
  Qed.

  Lemma sh_any_html n r : n <= N -> J n r [] [] parse_any_html (fun a _ t => opt1 elements a t).
  Proof.
    intros HN. unfold parse_any_html. step. step.
    { apply andb_true_iff in Heqb as [Heqb _]. eapply J_app; [apply sh_element; assumption|]. cbv beta. intros a r1 t1 _ H.
      apply J_ret. cbn [app opt1]. stmt. }
    step. step.
    { eapply J_app; [apply sh_html_comment; assumption|]. cbv beta. intros a r1 t1 _ H. apply J_ret. cbn [app opt1]. stmt. }
    step. step.
    { eapply J_app; [apply sh_doctype; assumption|]. cbv beta. intros a r1 t1 _ H. apply J_ret. cbn [app opt1]. stmt. }
    eapply J_mono; [apply sh_text|]. cbv beta. intros [a|] r1 t1 _ H; [|exact H]. cbn [opt1] in *. stmt.
  Qed.
  Lemma sh_any n r : n <= N -> J n r [] [] body_any (fun a _ t => opt1 elements a t).
  Proof.
    intros HN. unfold body_any. eapply J_app; [apply sh_any_twig; exact HN|]. cbv beta. intros [a|] r1 t1 _ H; cbn [opt1] in H.
    - apply J_ret. cbn [app opt1]. stmt.
    - subst t1. apply sh_any_html. exact HN.
  Qed.
  Lemma sh_body n c r : n <= N -> J n r [] [] (body c) (Rc c).
  Proof.
    intros HN. destruct c as [bp|[| | | |]]; cbn [body].
    - apply (sx_body_expression dbg T N HC); exact HN.
    - apply sh_any; exact HN.
    - apply sh_raw_inner; exact HN.
    - apply sh_double; exact HN.
    - apply sh_single; exact HN.
    - apply sh_attr; exact HN.
  Qed.
  Lemma sh_root_body n r : n <= N -> J n r [] [] root_body (fun _ _ t => sem (Many (nd elements)) (ck t)).
  Proof.
    intros HN. unfold root_body. many (Many (nd elements)). norm. cbn [bind fst snd].
    match goal with |- Shape.J _ _ _ _ _ _ _ _ (Call ?c ?k) _ =>
      change (Call c k) with (bind (Call c (fun x => Ret x)) k) end.
    eapply J_call; [intros m1 Hm1; apply HC; lia|]. cbv beta. intros a r1 t1 _ H. cbn [Rc] in H.
    opts a H; cbn [is_none].
    - steps. apply J_ret. cks. apply sem_many_app; [exact HI|now apply sem_many_one].
    - steps. apply J_ret. cks. exact HI.
  Qed.
End Html.

(** Every function of the grammar. *)
Theorem shape_body dbg T n c r : J true dbg T (wf dbg) n r [] [] (body c) (Rc c).
Proof.
  revert c r. induction n as [n IH] using (well_founded_induction lt_wf). intros c r.
  apply (sh_body dbg T n); [|auto]. intros m c' r' Hm. now apply IH.
Qed.
Theorem shape_root dbg T n r :
  J true dbg T (wf dbg) n r [] [] root_body (fun _ _ t => sem (Many (nd elements)) (ck t)).
Proof. apply (sh_root_body dbg T n); [|auto]. intros m c r' _. apply shape_body. Qed.
