(** Trees of arbitrary parses, part 4: html, the recursive entry points and the root. *)
From Coq Require Import NArith String Bool Arith Lia List.
Import ListNotations.
From Verif Require Import Text Kind Regex Lexer LexerProofs ParserApi GrammarExpr GrammarTags GrammarHtml
  Machine TreeMachine Simulation TreeSpec WpBase Total Schema Skeleton Precedence Shape ShapeStrict SkelBase SkelEdges SkelExpr SkelTags.
Local Notation length := List.length (only parsing).
Local Open Scope list_scope.
Local Open Scope prog_scope.
Local Open Scope cm_scope.

Lemma may0_many ks a t : may0 ks a t -> sem (Many (nd ks)) (cn t).
Proof.
  intros H. apply may0_sem in H. destruct H as [H|H]; [cbn [sem] in H; rewrite H; apply sem_many_nil|now apply sem_many_one].
Qed.
Lemma may0_sub ks ks' a t : may0 ks a t -> forallb (fun k => mem_kind k ks') ks = true -> may0 ks' a t.
Proof. destruct a; cbn [may0]; [apply one1_sub|auto]. Qed.

Section Html.
  Context (dbg : bool) (T : list token) (N : nat).
  Context (HC : forall m c r, m < N -> J false dbg T sound m r [] [] (body c) (Rs c)).
  Notation K := (K dbg T N).

  (** Loops that only move over tokens. *)
  Lemma kh_skip (f : list token -> bool) : K [] [] (parse_many (look f) (bump ;; Ret tt)) no_part.
  Proof.
    eapply K_mono; [apply (K_list _ _ _ _ _ Eps)|].
    - ksteps. kfin.
    - ksteps. apply K_ret. cns. apply sem_many_nil.
    - cbv beta. intros a t H. unfold no_part. induction H as [|x y H1 _ IH]; [reflexivity|]. cbn [sem] in H1. now rewrite H1, IH.
  Qed.
  Lemma kh_directive m tr ko us closing :
    K [(m, [])] [ITok tr ko us] (parse_ludtwig_directive m closing) (one1 [LUDTWIG_DIRECTIVE_IGNORE; LUDTWIG_DIRECTIVE_FILE_IGNORE]).
  Proof.
    unfold parse_ludtwig_directive. do 4 kstep. kn. eapply K_app with (R1 := no_part).
    { eapply K_mono; [apply (K_list _ _ _ _ _ Eps)|].
      - ksteps. kfin.
      - kstep. apply K_tail. kcall kt_opt_bump. apply K_ret. cns. apply sem_many_nil.
      - cbv beta. intros a t H. unfold no_part. induction H as [|y z H1 _ IH]; [reflexivity|]. cbn [sem] in H1. now rewrite H1, IH. }
    intros ? t H. unfold no_part in H. destruct x; ksteps; kfin.
  Qed.
  Lemma kh_comment : K [] [] parse_twig_comment_statement
    (one1 [TWIG_COMMENT; LUDTWIG_DIRECTIVE_IGNORE; LUDTWIG_DIRECTIVE_FILE_IGNORE]).
  Proof.
    unfold parse_twig_comment_statement, parse_twig_plain_comment. do 3 kstep. cbn [app]. kstep. kstep.
    - eapply K_mono; [apply kh_directive|]. intros a t H. eapply one1_sub; [exact H|reflexivity].
    - eapply K_app; [apply kh_skip|]. intros ? t H. ksteps. kfin.
  Qed.
  Lemma kh_var : K [] [] parse_twig_var_statement (one1 [TWIG_VAR]).
  Proof. unfold parse_twig_var_statement. kcall kt_expression_or. ksteps. kfin. Qed.
  Lemma kh_any_twig child : K [] [] (parse_any_twig child) (may0 twig_statements).
  Proof.
    unfold parse_any_twig. kstep. kstep; [eapply kt_block_statement; eassumption|]. kstep. kstep.
    - kcall kh_var. apply K_ret. cbn [app may0]. eapply one1_sub; [exact H|reflexivity].
    - kstep. kstep; [|kfin]. kcall kh_comment. apply K_ret. cbn [app may0]. eapply one1_sub; [exact H|reflexivity].
  Qed.
  Lemma kh_doctype : K [] [] parse_html_doctype (one1 [HTML_DOCTYPE]).
  Proof. unfold parse_html_doctype. ksteps. kfin. Qed.
  Lemma kh_text : K [] [] parse_html_text (may0 [HTML_TEXT]).
  Proof.
    unfold parse_html_text. kstep. kstep; [kfin|]. kstep. kn. eapply K_app; [apply kh_skip|]. intros ? t H. ksteps. kfin.
  Qed.
  Lemma kh_raw_child p : K [] [] p no_part ->
    K [] [] (r <- parse_any_twig PFRawInner ;; when (is_none r) p) (fun _ t => sem (Many (nd twig_statements)) (cn t)).
  Proof.
    intros Hp. kcall kh_any_twig. apply may0_many in H. apply K_tail. eapply K_app with (R1 := no_part).
    - destruct (is_none a); [exact Hp|kfin].
    - intros ? t1 H1. kfin.
  Qed.
  Lemma kh_raw_inner : K [] [] body_raw_inner (fun _ t => sem (Many (nd [HTML_RAW_TEXT])) (cn t)).
  Proof.
    unfold body_raw_inner. kstep. kn. eapply K_app; [apply (K_list _ _ _ _ _ (nd twig_statements))|].
    - unfold at_twig_termination_tag. ksteps. kfin.
    - apply kh_raw_child. ksteps. kfin.
    - cbv beta. intros ? t H. ksteps. kfin.
  Qed.
  Lemma kh_early k nm met : K [] [] (early_end_tag k nm met) no_part.
  Proof. unfold early_end_tag. ksteps; kfin. Qed.
  Lemma kh_raw_text k nm : K [] [] (parse_html_raw_text k nm) (fun _ t => sem (nd [HTML_RAW_TEXT]) (cn t)).
  Proof.
    unfold parse_html_raw_text. kstep. kn. eapply K_app; [apply (K_list_st _ _ _ bool _ _ false (nd twig_statements))|].
    - intros x. apply kh_early.
    - intros x. kcall kh_any_twig. apply may0_many in H. ksteps; kfin.
    - cbv beta. intros ? t H. ksteps. kfin.
  Qed.
  Lemma kh_html_comment : K [] [] parse_html_comment
    (one1 [HTML_COMMENT; LUDTWIG_DIRECTIVE_IGNORE; LUDTWIG_DIRECTIVE_FILE_IGNORE]).
  Proof.
    unfold parse_html_comment, parse_plain_html_comment. do 3 kstep. cbn [app]. kstep. kstep.
    - eapply K_mono; [apply kh_directive|]. intros a t H. eapply one1_sub; [exact H|reflexivity].
    - eapply K_app; [apply kh_skip|]. intros ? t H. ksteps. kfin.
  Qed.
  Lemma kh_string_child f : K [] [] (html_string_child f) (fun _ t => sem (Many (nd twig_statements)) (cn t)).
  Proof.
    unfold html_string_child. kcall kh_any_twig. apply may0_many in H. destruct (is_none a); cbn [when]; ksteps; kfin.
  Qed.
  Lemma kh_quoted (g : list token -> bool) f :
    K [] [] (parse_many (look g) (html_string_child f)) (fun _ t => sem (Many (nd twig_statements)) (cn t)).
  Proof. apply K_list; [ksteps; kfin|apply kh_string_child]. Qed.
  Lemma kh_double : K [] [] inner_double_quote_parser (fun _ t => sem (Many (nd twig_statements)) (cn t)).
  Proof. unfold inner_double_quote_parser. eapply K_app; [apply kh_quoted|]. cbv beta. intros ? t H. kfin. Qed.
  Lemma kh_single : K [] [] inner_single_quote_parser (fun _ t => sem (Many (nd twig_statements)) (cn t)).
  Proof. unfold inner_single_quote_parser. eapply K_app; [apply kh_quoted|]. cbv beta. intros ? t H. kfin. Qed.
  Lemma kh_no_quote : K [] [] inner_no_quote_parser (fun _ t => sem (Many (nd twig_statements)) (cn t)).
  Proof.
    unfold inner_no_quote_parser. kstep. kstep; [ksteps; kfin|]. kstep. kstep; [|ksteps; kfin].
    kcall kh_var. apply one1_sem in H. kfin.
  Qed.
  Lemma kh_value : K [] [] parse_html_attribute_value_string (one1 [HTML_STRING]).
  Proof.
    unfold parse_html_attribute_value_string. kstep. eapply K_app with (R1 := no_part).
    { ksteps; kfin. }
    intros q t H. unfold no_part in H. kstep.
    eapply K_app with (R1 := fun _ t => sem (Many (nd twig_statements)) (cn t)).
    { destruct q as [q|]; [|apply kh_no_quote]. destruct q; try (apply K_tail; apply K_fail).
      - eapply K_app; [apply kh_double|]. cbv beta. intros ? t1 H1. kfin.
      - eapply K_app; [apply kh_single|]. cbv beta. intros ? t1 H1. kfin. }
    cbv beta. intros ? t1 H1. destruct q as [q|]; cbn [is_some when].
    - unfold is_some, when. kn. apply K_trivia. intros tr. ksteps. kfin.
    - unfold is_some, when. ksteps; kfin.
  Qed.
  Lemma kh_attribute_rest m t : sem (opt (nd [TWIG_VAR])) (cn t) ->
    K [(m, [])] t (parse_html_attribute_rest m) (may0 [HTML_ATTRIBUTE]).
  Proof.
    intros Ht. unfold parse_html_attribute_rest. kstep. kstep.
    - kcall kh_value. apply one1_sem in H. ksteps. kfin.
    - ksteps. kfin.
  Qed.
  Lemma kh_attr : K [] [] body_attr (fun _ t => sem (Many (nd (HTML_ATTRIBUTE :: twig_statements))) (cn t)).
  Proof.
    assert (L : forall a t, may0 [HTML_ATTRIBUTE] a t -> sem (Many (nd (HTML_ATTRIBUTE :: twig_statements))) (cn t)).
    { intros a t H. apply (may0_many _ a). eapply may0_sub; [exact H|reflexivity]. }
    unfold body_attr. kstep. destruct x as [text|]; [|apply K_ret; apply sem_many_nil].
    destruct (rfull HTML_ATTRIBUTE_NAME_REGEX text).
    - kstep. kstep. kstep.
      + ksteps. eapply K_mono; [apply kh_attribute_rest|exact L]. cns. apply sem_opt_nil.
      + ksteps. eapply K_mono; [apply kh_attribute_rest|exact L]. cns. apply sem_opt_nil.
    - kstep. kstep.
      + kcall kh_var. apply one1_sem in H. eapply K_mono; [apply kh_attribute_rest|exact L]. cns. now apply sem_opt.
      + eapply K_mono; [apply kh_any_twig|]. intros a t H. apply (may0_many _ a). eapply may0_sub; [exact H|reflexivity].
  Qed.
  Lemma kh_attributes : K [] [] parse_attribute_list (fun _ t => sem (nd [HTML_ATTRIBUTE_LIST]) (cn t)).
  Proof.
    unfold parse_attribute_list. kstep. kn. eapply K_app; [apply (K_list _ _ _ _ _ (nd (kids PFAttr)))|].
    - ksteps. kfin.
    - apply kt_child. exact HC.
    - cbv beta. intros ? t H. cbn [kids] in H. ksteps. kfin.
  Qed.
  Lemma kh_ending k nm met : K [] [] (parse_html_ending_tag k nm met) (fun _ t => sem (nd [HTML_ENDING_TAG]) (cn t)).
  Proof. unfold parse_html_ending_tag. ksteps; kfin. Qed.
  Lemma kh_element : K [] [] parse_html_element (one1 [HTML_TAG]).
  Proof.
    unfold parse_html_element. do 4 kstep. kstep. cbv zeta. kn. eapply K_app with (R1 := no_part).
    { ksteps; kfin. }
    intros ? t H. unfold no_part in H.
    eapply K_app; [apply kh_attributes|]. cbv beta. intros ? ta Ha.
    eapply K_app with (R1 := no_part).
    { ksteps; kfin. }
    intros b tb Hb. unfold no_part in Hb. kstep. kstep; [ksteps; kfin|]. kstep. kn.
    eapply K_app with (R1 := fun _ t => sem (Many (nd elements) <|> Many (nd [HTML_RAW_TEXT])) (cn t)).
    { destruct (existsb _ HTML_RAW_TEXT_ELEMENTS).
      - eapply K_mono; [apply kh_raw_text|]. cbv beta. intros ? t1 H1. right. now apply sem_many_one.
      - eapply K_mono; [apply (K_list_st _ _ _ bool _ _ false (nd (kids PFAny)))|].
        + intros y. apply kh_early.
        + intros y. eapply K_app; [apply kt_child; exact HC|]. cbv beta. intros ? t1 H1. apply K_ret. exact H1.
        + cbv beta. intros ? t1 H1. left. exact H1. }
    cbv beta. intros met t1 H1. kn. eapply K_complete; [reflexivity|reflexivity|reflexivity| |].
    { destruct H1 as [H1|H1]; [left; exact H1|right; left; exact H1]. }
    intros cs1. kcall kh_ending. ksteps. kfin.
  Qed.
  Lemma kh_any_html : K [] [] parse_any_html (may0 elements).
  Proof.
    unfold parse_any_html. kstep. kstep.
    { kcall kh_element. apply K_ret. cbn [app may0]. eapply one1_sub; [exact H|reflexivity]. }
    kstep. kstep.
    { kcall kh_html_comment. apply K_ret. cbn [app may0]. eapply one1_sub; [exact H|reflexivity]. }
    kstep. kstep.
    { kcall kh_doctype. apply K_ret. cbn [app may0]. eapply one1_sub; [exact H|reflexivity]. }
    eapply K_mono; [apply kh_text|]. intros a t H. eapply may0_sub; [exact H|reflexivity].
  Qed.
  Lemma kh_any : K [] [] body_any (fun _ t => sem (Many (nd elements)) (cn t)).
  Proof.
    unfold body_any. kcall kh_any_twig. apply may0_many in H. destruct a as [c|].
    - apply K_ret. cbn [app]. eapply sem_many_incl; [exact H|reflexivity].
    - apply K_tail. eapply K_app; [apply kh_any_html|]. intros a t1 H1. apply may0_many in H1. apply K_ret. cns.
      apply sem_many_app; [|exact H1]. eapply sem_many_incl; [exact H|reflexivity].
  Qed.
  Lemma kh_child f : K [] [] (body (CChild f)) (Rk (CChild f)).
  Proof.
    destruct f; cbn [body Rk kids].
    - apply kh_any.
    - apply kh_raw_inner.
    - apply kh_double.
    - apply kh_single.
    - apply kh_attr.
  Qed.
  Lemma kh_root_body : K [] [] root_body (fun _ t => sem (Many (nd elements)) (cn t)).
  Proof.
    unfold root_body. apply K_list; [kfin|].
    match goal with |- SkelBase.K _ _ _ _ _ (Call ?c ?k) _ =>
      change (Call c k) with (bind (Call c (fun x => Ret x)) k) | _ => idtac end.
    eapply K_call; [exact HC|]. intros a t H. cbn [Rk kids] in H. destruct a as [c|]; cbn [is_none]; ksteps; apply K_tail; ksteps; kfin.
  Qed.
End Html.

(** Every function of the grammar. *)
Theorem skel_body dbg T n c r : J false dbg T sound n r [] [] (body c) (Rs c).
Proof.
  revert c r. induction n as [n IH] using (well_founded_induction lt_wf). intros c r.
  assert (HC : forall m c r, m < n -> J false dbg T sound m r [] [] (body c) (Rs c)) by (intros m c' r' Hm; now apply IH).
  destruct c as [bp|f].
  - apply (lx_body_expression dbg T n HC bp r n (le_n n)).
  - apply (kh_child dbg T n HC f n r (le_n n)).
Qed.
Theorem skel_root dbg T n r :
  J false dbg T sound n r [] [] root_body (fun _ _ t => sem (Many (nd elements)) (cn t)).
Proof. apply (kh_root_body dbg T n); [|auto]. intros m c r' _. apply skel_body. Qed.
