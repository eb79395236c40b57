(** Trees of arbitrary parses, part 3: twig tags. *)
From Coq Require Import NArith String Bool Arith Lia List.
Import ListNotations.
From Verif Require Import Text Kind Regex Lexer LexerProofs ParserApi GrammarExpr GrammarTags GrammarHtml
  Machine TreeMachine Simulation TreeSpec WpBase Total Schema Skeleton Precedence Shape ShapeStrict SkelBase SkelEdges SkelExpr.
Local Notation length := List.length (only parsing).
Local Open Scope list_scope.
Local Open Scope prog_scope.
Local Open Scope cm_scope.

Section Tags.
  Context (dbg : bool) (T : list token) (N : nat).
  Context (HC : forall m c r, m < N -> J false dbg T sound m r [] [] (body c) (Rs c)).
  Notation K := (K dbg T N).

  Lemma kt_child f : K [] [] (call_child f) (fun _ t => sem (Many (nd (kids f))) (cn t)).
  Proof.
    unfold call_child. change (Call (CChild f) (fun _ => Ret tt)) with (bind (Call (CChild f) (fun x => Ret x)) (fun _ => Ret tt)).
    eapply K_call; [exact HC|]. intros a t H. apply K_ret. exact H.
  Qed.
  Lemma kt_body early f : K [] [] early no_part -> K [] [] (parse_body early f) (fun _ t => sem (nd [BODY]) (cn t)).
  Proof.
    intros He. unfold parse_body. kstep. kn. eapply K_app; [apply K_list; [exact He|apply kt_child]|]. cbv beta. intros _ t H.
    eapply K_complete; [reflexivity|reflexivity|reflexivity| |].
    - destruct f; cbn [kids] in H; first [left; exact H | right; left; exact H | right; right; exact H
        | right; right; eapply sem_many_incl; [exact H|reflexivity]].
    - intros cs. kfin.
  Qed.
  Lemma kt_twig_tag k : K [] [] (at_twig_tag k) no_part.
  Proof. apply K_tail. apply K_look. intros x. kfin. Qed.
  Lemma kt_ending kw r1 r2 r3 nodek : skeleton nodek = Some Eps -> not_error nodek = true ->
    K [] [] (parse_ending kw r1 r2 r3 nodek) (fun _ t => sem (nd [nodek]) (cn t)).
  Proof.
    intros Hk He. unfold parse_ending. ksteps. eapply K_complete; [exact Hk|exact He|destruct nodek; reflexivity || discriminate Hk|np|]. intros cs. apply K_ret.
    cbn [app]. apply (one1_sem _ m). now apply one1_self.
  Qed.
  Lemma kt_expression_or msg set : K [] [] (expression_or msg set) (fun _ t => sem (opt expr) (cn t)).
  Proof. unfold expression_or. kcall kx_expression. apply may1_sem in H. apply K_tail. kstep. kfin. Qed.
  Lemma kt_name_or msg set : K [] [] (name_or msg set) (fun _ t => sem (opt name) (cn t)).
  Proof. unfold name_or. kcall kx_name. apply may1_sem in H. apply K_tail. kstep. kfin. Qed.
  Lemma kt_string_or msg set : K [] [] (string_or msg set) (fun _ t => sem (opt string_) (cn t)).
  Proof. unfold string_or. kstep. kstep; [kcall kx_string; apply one1_sem in H; kfin|]. ksteps. kfin. Qed.
  Lemma kt_opt_bump k : K [] [] (opt_bump k) no_part.
  Proof. unfold opt_bump. ksteps; kfin. Qed.
  Lemma kt_end_name what nm : K [] [] (parse_end_name what nm) no_part.
  Proof.
    unfold parse_end_name. kstep. kstep; [|kfin]. kstep. destruct nm; [|kfin]. ksteps; kfin.
  Qed.
  Lemma kt_include_with set :
    K [] [] (parse_include_with set) (fun _ t => sem (opt (nd [TWIG_INCLUDE_WITH])) (cn t)).
  Proof. unfold parse_include_with. kstep. kstep; [|kfin]. kcall kt_expression_or. ksteps. kfin. Qed.
  Lemma kt_or p q : K [] [] p no_part -> K [] [] q no_part -> K [] [] (a <- p ;; if a : bool then Ret true else q) no_part.
  Proof. intros Hp Hq. eapply K_app; [exact Hp|]. intros a t H. destruct a; [kfin|]. apply K_tail. eapply K_app; [exact Hq|].
    intros b t1 H1. kfin. Qed.
  Lemma kt_wrap c k cs early child kw r1 r2 r3 e w : K [] [] early no_part -> not_error k = true ->
    skeleton w = Some (enclosed_body k e) -> skeleton e = Some Eps -> not_error e = true -> not_error w = true ->
    K [] [INode c (Node k cs)]
      (wrapper_m <- precede c ;; parse_body early child ;; parse_ending kw r1 r2 r3 e ;; complete wrapper_m w)
      (one1 [w]).
  Proof.
    intros He Hk Hw Hs He' Hw'. eapply K_precede0; [apply one1_self; exact Hk|]. intros m t H.
    eapply K_app; [apply kt_body; exact He|]. cbv beta. intros _ t1 H1.
    eapply K_app; [apply kt_ending; assumption|]. cbv beta. intros _ t2 H2. apply K_tail.
    eapply K_complete; [exact Hw|exact Hw'|destruct w; reflexivity || discriminate Hw| |].
    - rewrite !cn_app, <- app_assoc. apply sem_seq; [exact H|]. apply sem_seq; assumption.
    - intros cs'. apply K_ret. cbn [app]. now apply one1_self.
  Qed.
  Ltac wrap := kn; cbn [app]; apply kt_wrap; [repeat (apply kt_or; [apply kt_twig_tag|]); apply kt_twig_tag|reflexivity..].

  Notation Tag p k := (forall m tr ko us, K [(m, [])] [ITok tr ko us] (p m) (one1 [k])).
  Ltac tag f := intros m tr ko us; unfold f.

  Lemma kt_cache child : Tag (fun m => parse_twig_cache m child) TWIG_CACHE.
  Proof.
    tag parse_twig_cache. kcall kt_expression_or. kstep. kstep.
    - kcall kt_expression_or. do 4 kstep. kstep. kstep.
      + kcall kt_expression_or. ksteps. wrap.
      + ksteps. wrap.
    - kstep. kstep. kstep.
      + kcall kt_expression_or. ksteps. wrap.
      + ksteps. wrap.
  Qed.
  Lemma kt_with child : Tag (fun m => parse_twig_with m child) TWIG_WITH.
  Proof. tag parse_twig_with. kcall kx_expression. apply may1_sem in H. kcall kt_opt_bump. ksteps. wrap. Qed.
  Lemma kt_verbatim child : Tag (fun m => parse_twig_verbatim m child) TWIG_VERBATIM.
  Proof. tag parse_twig_verbatim. ksteps. wrap. Qed.
  Lemma kt_sandbox child : Tag (fun m => parse_twig_sandbox m child) TWIG_SANDBOX.
  Proof. tag parse_twig_sandbox. ksteps. wrap. Qed.
  Lemma kt_trans child : Tag (fun m => parse_twig_trans m child) TWIG_TRANS.
  Proof. tag parse_twig_trans. ksteps. wrap. Qed.
  Lemma kt_flush : Tag parse_twig_flush TWIG_FLUSH.
  Proof. tag parse_twig_flush. ksteps. kfin. Qed.
  Lemma kt_do : Tag parse_twig_do TWIG_DO.
  Proof. tag parse_twig_do. kcall kt_expression_or. ksteps. kfin. Qed.
  Lemma kt_deprecated : Tag parse_twig_deprecated TWIG_DEPRECATED.
  Proof. tag parse_twig_deprecated. kcall kt_string_or. ksteps. kfin. Qed.
  Lemma kt_autoescape child : Tag (fun m => parse_twig_autoescape m child) TWIG_AUTOESCAPE.
  Proof.
    tag parse_twig_autoescape. do 4 kstep.
    - kcall kx_string. apply one1_sem in H. ksteps. wrap.
    - ksteps; wrap.
  Qed.
  Lemma kt_import : Tag parse_twig_import TWIG_IMPORT.
  Proof. tag parse_twig_import. kcall kt_expression_or. kcall kt_name_or. ksteps. kfin. Qed.
  Lemma kt_extends : Tag parse_twig_extends TWIG_EXTENDS.
  Proof. tag parse_twig_extends. kcall kt_expression_or. ksteps. kfin. Qed.
  Lemma kt_include : Tag parse_twig_include TWIG_INCLUDE.
  Proof.
    tag parse_twig_include. kcall kt_expression_or. kcall kt_opt_bump. kcall kt_include_with. kcall kt_opt_bump. ksteps. kfin.
  Qed.
  Lemma kt_embed child : Tag (fun m => parse_twig_embed m child) TWIG_EMBED.
  Proof.
    tag parse_twig_embed. kcall kt_expression_or. kcall kt_opt_bump. kcall kt_include_with. kcall kt_opt_bump. ksteps. wrap.
  Qed.
  Lemma kt_for child : Tag (fun m => parse_twig_for m child) TWIG_FOR.
  Proof.
    assert (L : forall c cs, K [] [INode c (Node TWIG_FOR_BLOCK cs)]
      (wrapper_m <- precede c ;;
       parse_body (a <- at_twig_tag TK_ENDFOR ;; if a then Ret true else at_twig_tag TK_ELSE) child ;;
       (If at_twig_tag TK_ELSE Then
          else_m <- start ;;
          bump ;; bump ;;
          expect_any TWIG_BLOCK_CLOSE_SET ([TK_ENDFOR] ++ close_slash) ;;
          complete else_m TWIG_FOR_ELSE_BLOCK ;;
          parse_body (at_twig_tag TK_ENDFOR) child
        Else Ret tt) ;;
       parse_ending TK_ENDFOR ([TK_ENDFOR] ++ close_slash) close_slash [TK_LESS_THAN_SLASH] TWIG_ENDFOR_BLOCK ;;
       complete wrapper_m TWIG_FOR) (one1 [TWIG_FOR])).
    { intros c cs. kprec.
      eapply K_app; [apply kt_body; apply kt_or; apply kt_twig_tag|]. cbv beta. intros _ t1 H1. kstep. kstep.
      - do 5 kstep. kn. eapply K_app; [apply kt_body; apply kt_twig_tag|]. cbv beta. intros _ t4 H4.
        eapply K_app; [apply kt_ending; reflexivity|]. cbv beta. intros _ t5 H5. ksteps. kfin.
      - ksteps. eapply K_app; [apply kt_ending; reflexivity|]. cbv beta. intros _ t5 H5. ksteps. kfin. }
    tag parse_twig_for. kcall kt_name_or. kstep. kstep.
    - kcall kt_name_or. kcall kt_expression_or. ksteps. apply L.
    - kcall kt_expression_or. ksteps. apply L.
  Qed.
  Lemma kt_branches child :
    K [] [] (parse_if_branches child)
      (fun _ t => sem (nd [BODY] >> Many (nd [TWIG_ELSE_IF_BLOCK; TWIG_ELSE_BLOCK] >> nd [BODY])) (cn t)).
  Proof.
    unfold parse_if_branches.
    apply K_iter with (I := fun _ t => sem (Many (nd [BODY] >> nd [TWIG_ELSE_IF_BLOCK; TWIG_ELSE_BLOCK])) (cn t));
      [apply sem_many_nil|].
    assert (L : forall l b, sem (Many (nd [BODY] >> nd [TWIG_ELSE_IF_BLOCK; TWIG_ELSE_BLOCK])) l -> sem (nd [BODY]) b ->
      sem (nd [BODY] >> Many (nd [TWIG_ELSE_IF_BLOCK; TWIG_ELSE_BLOCK] >> nd [BODY])) (l ++ b)).
    { intros l b Hl. revert b. induction Hl as [|x y (u & v & -> & Hu & Hv) _ IH]; intros b Hb.
      - apply sem_seq_last; [exact Hb|apply sem_many_nil].
      - rewrite <- !app_assoc. apply sem_seq; [exact Hu|]. destruct (IH b Hb) as (b1 & z & E & Hb1 & Hz). rewrite E.
        rewrite app_assoc. constructor; [|exact Hz]. now apply sem_seq. }
    intros [] t HI.
    eapply K_app; [apply kt_body; repeat (apply kt_or; [apply kt_twig_tag|]); apply kt_twig_tag|].
    cbv beta. intros _ t1 H1.
    kstep. kstep; [apply K_ret; rewrite cn_app; now apply L|]. kstep. kstep.
    - kcall kt_expression_or. ksteps. apply K_ret.
      rewrite !cn_app, <- app_assoc. apply sem_many_app; [exact HI|]. apply sem_many_one. apply sem_seq; [exact H1|].
      smn.
    - kstep. kstep.
      + ksteps. apply K_ret.
        rewrite !cn_app, <- app_assoc. apply sem_many_app; [exact HI|]. apply sem_many_one. apply sem_seq; [exact H1|].
        smn.
      + apply K_ret. rewrite cn_app. now apply L.
  Qed.
  Lemma kt_if child : Tag (fun m => parse_twig_if m child) TWIG_IF.
  Proof.
    tag parse_twig_if. kcall kt_expression_or. ksteps. kprec.
    eapply K_app; [apply kt_branches|]. cbv beta. intros ? tb Hb.
    eapply K_app; [apply kt_ending; reflexivity|]. cbv beta. intros _ t5 H5.
    ksteps; [|kfin]. cns. apply sem_seq; [eassumption|].
    destruct Hb as (x & y & -> & Hx & Hy). rewrite <- app_assoc. apply sem_seq; [exact Hx|]. now apply sem_seq.
  Qed.
  Lemma kt_component child : Tag (fun m => parse_twig_component m child) TWIG_COMPONENT.
  Proof.
    tag parse_twig_component. kcall kx_name. apply may1_sem in H. do 3 kstep.
    - do 3 kstep.
      + kcall kx_hash. apply one1_sem in H1. ksteps. wrap.
      + ksteps. wrap.
    - ksteps. wrap.
  Qed.
  Lemma kt_thumbnails : Tag parse_twig_sw_thumbnails SHOPWARE_THUMBNAILS.
  Proof.
    tag parse_twig_sw_thumbnails. kcall kt_expression_or. kstep. kstep.
    - kcall kt_expression_or. ksteps. kfin.
    - ksteps. kfin.
  Qed.
  Lemma kt_icon : Tag parse_twig_sw_icon SHOPWARE_ICON.
  Proof.
    tag parse_twig_sw_icon. kcall kt_expression_or. kstep. kstep.
    - kcall kt_expression_or. ksteps. kfin.
    - ksteps. kfin.
  Qed.
  Lemma kt_return : Tag parse_twig_sw_return SHOPWARE_RETURN.
  Proof. tag parse_twig_sw_return. kcall kx_expression. apply may1_sem in H. ksteps. kfin. Qed.
  Lemma kt_feature child : Tag (fun m => parse_twig_sw_silent_feature_call m child) SHOPWARE_SILENT_FEATURE_CALL.
  Proof. tag parse_twig_sw_silent_feature_call. kcall kt_string_or. ksteps. wrap. Qed.
  Lemma kt_sw_extends : Tag parse_twig_sw_extends SHOPWARE_TWIG_SW_EXTENDS.
  Proof. tag parse_twig_sw_extends. kcall kt_string_or. ksteps. kfin. Qed.
  Lemma kt_sw_include : Tag parse_twig_sw_include SHOPWARE_TWIG_SW_INCLUDE.
  Proof.
    tag parse_twig_sw_include. kcall kt_expression_or. kcall kt_opt_bump. kcall kt_include_with. kcall kt_opt_bump. ksteps. kfin.
  Qed.
  Lemma kt_override desc :
    K [] [] (parse_name_as_name_override desc) (fun _ t => sem (nd [TWIG_OVERRIDE]) (cn t)).
  Proof.
    unfold parse_name_as_name_override. kcall kt_name_or. kstep. kstep.
    - kcall kt_name_or. ksteps. kfin.
    - ksteps. kfin.
  Qed.
  Lemma kt_overrides desc : K [] [] (parse_overrides desc) (fun _ t => sem (Many (nd [TWIG_OVERRIDE])) (cn t)).
  Proof.
    unfold parse_overrides. apply K_list_st.
    - intros x. ksteps. kfin.
    - intros x. kcall kt_override. ksteps; kfin.
  Qed.
  Lemma kt_from : Tag parse_twig_from TWIG_FROM.
  Proof.
    tag parse_twig_from. kcall kt_expression_or. kstep. kstep; ksteps; kcall kt_overrides; ksteps; kfin.
  Qed.
  Lemma kt_use : Tag parse_twig_use TWIG_USE.
  Proof.
    tag parse_twig_use. kcall kt_string_or. kstep. kstep.
    - kcall kt_overrides. ksteps; kfin.
    - ksteps. kfin.
  Qed.
  Lemma kt_props : Tag parse_twig_props TWIG_PROPS.
  Proof.
    tag parse_twig_props. ksteps. eapply K_app.
    { apply (K_list _ _ _ _ _ (nd [TWIG_PROP_DECLARATION])).
      - ksteps. kfin.
      - kcall kx_name. apply may1_sem in H. do 3 kstep.
        + kcall kx_expression. apply may1_sem in H1. ksteps; kfin.
        + ksteps; kfin. }
    cbv beta. intros _ t1 H1. ksteps. kfin.
  Qed.
  Lemma kt_macro child : Tag (fun m => parse_twig_macro m child) TWIG_MACRO.
  Proof.
    tag parse_twig_macro. kcall kx_arguments. ksteps. kprec.
    eapply K_app; [apply kt_body; apply kt_twig_tag|]. cbv beta. intros ? tb Hb.
    kcall kt_end_name. ksteps. kfin.
  Qed.
  Lemma kt_set_assignment : K [] [] parse_set_assignment (fun _ t => sem (nd [TWIG_ASSIGNMENT]) (cn t)).
  Proof.
    unfold parse_set_assignment. kstep. kn. eapply K_app.
    { apply (K_list_st _ _ _ nat _ _ 0 name).
      - intros x. ksteps. kfin.
      - intros x. kcall kx_name. apply may1_sem in H. ksteps; kfin. }
    cbv beta. intros a t H. kstep. kstep. kstep.
    - kstep. kn. eapply K_app.
      { apply (K_list_st _ _ _ nat _ _ 0 expr).
        - intros y. ksteps. kfin.
        - intros y. kcall kx_expression. apply may1_sem in H1. ksteps; kfin. }
      cbv beta. intros b tb Hb. ksteps. kfin.
    - ksteps. kfin.
  Qed.
  Lemma kt_set child : Tag (fun m => parse_twig_set m child) TWIG_SET.
  Proof.
    tag parse_twig_set. kcall kt_set_assignment. ksteps. kprec. kn.
    destruct a; cbn [negb when].
    - ksteps. kfin.
    - kn. eapply K_app; [apply kt_body; apply kt_twig_tag|]. cbv beta. intros ? tb Hb.
      eapply K_app; [apply kt_ending; reflexivity|]. cbv beta. intros ? te He. ksteps. kfin.
  Qed.
  Lemma kt_block child : Tag (fun m => parse_twig_block m child) TWIG_BLOCK.
  Proof.
    assert (L : forall c cs (b : bool) bn, K [] [INode c (Node TWIG_STARTING_BLOCK cs)]
      (wrapper_m <- precede c ;;
       when (negb b)
         (parse_body (at_twig_tag TK_ENDBLOCK) child ;;
          end_block_m <- start ;;
          expect_any TWIG_BLOCK_OPEN_SET ([TK_LESS_THAN_SLASH; TK_ENDBLOCK] ++ close3) ;;
          expect TK_ENDBLOCK ([TK_LESS_THAN_SLASH] ++ close3) ;;
          parse_end_name "block" bn ;;
          expect_any TWIG_BLOCK_CLOSE_SET [TK_LESS_THAN_SLASH] ;;
          complete end_block_m TWIG_ENDING_BLOCK ;; Ret tt) ;;
       complete wrapper_m TWIG_BLOCK) (one1 [TWIG_BLOCK])).
    { intros c cs b bn. kprec. destruct b; cbn [negb when].
      - ksteps. kfin.
      - kn. eapply K_app; [apply kt_body; apply kt_twig_tag|]. cbv beta. intros ? tb Hb.
        kcall kt_end_name. ksteps. kfin. }
    tag parse_twig_block. do 3 kstep. kstep. kstep.
    - ksteps. apply L.
    - kcall kx_expression. apply may1_sem in H0. destruct (is_none a0).
      + ksteps. apply L.
      + ksteps. apply L.
  Qed.
  Lemma K_under (A B : Set) segs o t1 (p : prog A) (g : A -> prog B) R1 R :
    K [] t1 p R1 -> (forall a t', R1 a t' -> K segs (o ++ t') (g a) R) -> K segs (o ++ t1) (bind p g) R.
  Proof.
    intros H Hg n r Hn. specialize (H n r Hn). eapply J_bind with (R1 := fun a r' t' => exists t1', t' = o ++ t1' /\ R1 a t1').
    - intros Ht Hs its st. apply Forall_app in Ht as [Ho Ht]. specialize (H Ht Hs (its ++ o) st). cbn [cur stk] in *.
      rewrite <- app_assoc in H. eapply wp_mono; [exact H|]. cbn. intros a r' i s (t' & -> & -> & G & Ha).
      exists (o ++ t'). rewrite app_assoc. repeat split; auto; [|eauto]. apply Forall_app. auto.
    - cbn beta. intros a r1 t' _ (t1' & -> & Ha). now apply Hg.
  Qed.
  Lemma kt_apply child : Tag (fun m => parse_twig_apply m child) TWIG_APPLY.
  Proof.
    set (P := opt name <|> (name >> nd [TWIG_ARGUMENTS]) <|> nd [TWIG_FILTER]).
    set (Inv := fun (c : nat) t => exists u rest, t = u ++ rest /\
        ((one1 [TWIG_LITERAL_NAME] c u /\ sem (opt (nd [TWIG_ARGUMENTS])) (cn rest)) \/ (one1 [TWIG_FILTER] c u /\ cn rest = []))).
    assert (F : forall c t, Inv c t -> sem P (cn t)).
    { intros c t (u & rest & -> & [[Hu Hr]|[Hu Hr]]); apply one1_sem in Hu; rewrite !cn_app.
      - destruct Hr as [Hr|Hr]; [cbn [sem] in Hr; rewrite Hr, app_nil_r; left; now right|].
        right. left. now apply sem_seq.
      - rewrite Hr, app_nil_r. right. right. exact Hu. }
    assert (L : forall c t, Inv c t -> K [] t
        (parse_many_st (fun node => b <- at_twig_block_close ;; Ret (b, node))
           (fun node => If at_ TK_SINGLE_PIPE Then parse_twig_filter node Else Ret node) c) Inv).
    { intros c t H. apply K_many_st; [exact H| | |]; clear c t H.
      - intros c t i (u & rest & -> & H) Hi. exists u, (rest ++ [i]). rewrite !app_assoc. split; [reflexivity|].
        assert (Z : cn (rest ++ [i]) = cn rest).
        { rewrite cn_app, (unk_cn [i]) by auto. apply app_nil_r. }
        rewrite Z. exact H.
      - intros c t H. ksteps. apply K_ret. exact H.
      - intros c t (u & rest & -> & H). kstep. kstep; [|apply K_ret; exists u, rest; auto].
        assert (Z : K [] (u ++ rest) (parse_twig_filter c) (one1 [TWIG_FILTER])).
        { destruct H as [[Hu Hr]|[Hu Hr]]; eapply kx_filter_of; try eassumption; intros l Hl.
          - destruct Hr as [Hr|Hr].
            + cbn [sem] in Hr. rewrite Hr, app_nil_r. left. right. eapply sem_nd_incl; [exact Hl|reflexivity].
            + right. now apply sem_seq.
          - rewrite Hr, app_nil_r. left. right. eapply sem_nd_incl; [exact Hl|reflexivity]. }
        eapply K_mono; [exact Z|]. intros c' t' H'. exists t', []. rewrite app_nil_r. split; [reflexivity|]. right. auto. }
    tag parse_twig_apply. kcall kx_name. destruct a as [c|]; cbn [may1] in H; kn.
    - cbn [app]. kstep. kstep.
      + kcall kx_arguments. ksteps. kn. rewrite <- ?app_assoc. cbn [app].
        eapply (K_under _ _ _ [ITok tr ko us; ITok tr0 (tk_kind tok) [tok]]).
        { apply L. eexists t, _. split; [reflexivity|]. left. split; [exact H|]. smn. }
        cbv beta. intros a1 tz Hz. apply F in Hz. unfold P in Hz. ksteps. wrap.
      + ksteps. kn. eapply (K_under _ _ _ [ITok tr ko us; ITok tr0 (tk_kind tok) [tok]] t).
        { apply L. exists t, []. rewrite app_nil_r. split; [reflexivity|]. left. split; [exact H|]. apply sem_opt_nil. }
        cbv beta. intros a1 tz Hz. apply F in Hz. unfold P in Hz. ksteps. wrap.
    - ksteps. wrap.
  Qed.

  Lemma K_seq (A B : Set) segs t (p : prog A) (g : A -> prog B) R1 R :
    K segs t p R1 -> (forall a t1, R1 a t1 -> K [] t1 (g a) R) -> K segs t (bind p g) R.
  Proof.
    intros H Hg n r Hn Ht Hs its st. apply wp_bind. eapply wp_mono; [exact (H n r Hn Ht Hs its st)|].
    cbn. intros a r' i s (t' & -> & -> & G & Ha). now apply (Hg a t' Ha n r' Hn G (Forall_nil _) its st).
  Qed.
  Ltac arm L := eapply K_seq; [apply L|]; cbv beta; let t := fresh "t" in let H := fresh "H" in intros ? t H;
    apply K_ret; cbn [may0]; eapply one1_sub; [exact H|reflexivity].
  Lemma kt_block_statement child : K [] [] (parse_twig_block_statement child) (may0 twig_statements).
  Proof.
    unfold parse_twig_block_statement, parse_shopware_twig_block_statement. do 3 kstep. cbn [app].
    kstep; kstep; [arm kt_block|]. kstep; kstep; [arm kt_if|]. kstep; kstep; [arm kt_set|].
    kstep; kstep; [arm kt_for|]. kstep; kstep; [arm kt_extends|]. kstep; kstep; [arm kt_include|].
    kstep; kstep; [arm kt_embed|]. kstep; kstep; [arm kt_use|]. kstep; kstep; [arm kt_from|].
    kstep; kstep; [arm kt_import|]. kstep; kstep; [arm kt_apply|]. kstep; kstep; [arm kt_autoescape|].
    kstep; kstep; [arm kt_deprecated|]. kstep; kstep; [arm kt_do|]. kstep; kstep; [arm kt_flush|].
    kstep; kstep; [arm kt_sandbox|]. kstep; kstep; [arm kt_verbatim|]. kstep; kstep; [arm kt_macro|].
    kstep; kstep; [arm kt_with|]. kstep; kstep; [arm kt_cache|]. kstep; kstep; [arm kt_trans|].
    kstep; kstep; [arm kt_component|]. kstep; kstep; [arm kt_props|].
    kstep; kstep; [kn; cbn [bind]; arm kt_sw_extends|]. kstep; kstep; [kn; cbn [bind]; arm kt_sw_include|].
    kstep; kstep; [kn; cbn [bind]; arm kt_feature|]. kstep; kstep; [kn; cbn [bind]; arm kt_return|].
    kstep; kstep; [kn; cbn [bind]; arm kt_icon|]. kstep; kstep; [kn; cbn [bind]; arm kt_thumbnails|].
    ksteps. kfin.
  Qed.
End Tags.
