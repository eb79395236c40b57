(** Total correctness of Twig statements, HTML and the root of the grammar (GrammarHtml.v). *)
From Coq Require Import NArith String Bool Arith Lia List.
Import ListNotations.
From Verif Require Import Text Kind Regex Lexer LexerProofs ParserApi GrammarExpr GrammarTags GrammarHtml
  Machine TreeMachine Simulation TreeSpec WpBase Total TotalApi TotalExpr TotalTags.
Local Notation length := List.length (only parsing).
Local Open Scope string_scope.
Local Open Scope list_scope.
Local Open Scope prog_scope.

(** The name of an attribute that starts with a colon goes on with a letter. *)
Lemma rfull_rmatch : forall s r, rfull r s = true -> rmatch r s.
Proof.
  induction s as [|c s IH]; intros r H; cbn [rfull] in H; [now apply nullable_spec|]. apply deriv_spec. now apply IH.
Qed.
Lemma attr_colon : forall s, rfull HTML_ATTRIBUTE_NAME_REGEX (txt ":" ++ s) = true -> letter_first s.
Proof.
  intros s H. apply rfull_rmatch in H. change (txt ":" ++ s) with (58%N :: s) in H. unfold HTML_ATTRIBUTE_NAME_REGEX in H.
  apply rseq_inv in H as (a & b & E & A & _).
  assert (C : (exists c, a = [c] /\ in_class cl_letter c = true) \/
              (exists c d, a = [c; d] /\ in_class cl_letter d = true)).
  { inversion A as [| | |? ? ? A1|? ? ? A1| |]; subst.
    - left. inversion A1; subst. eauto.
    - right. apply rseq_inv in A1 as (u & v & -> & U & V). inversion U; subst. inversion V; subst. cbn [app]. eauto. }
  destruct C as [(c & -> & C)|(c & d & -> & C)]; cbn [app] in E; injection E as <- E.
  - vm_compute in C. discriminate C.
  - exists d, b. split; [exact E|]. unfold in_class, cl_letter in C. cbn [existsb fst snd] in C. unfold in_range in C.
    rewrite !orb_true_iff, !andb_true_iff, !N.leb_le in C. destruct C as [C|[C|C]]; [right|left|discriminate C]; lia.
Qed.

Lemma general_kinds : forall k, mem_kind k GENERAL_RECOVERY_SET = true ->
  kind_eqb k TK_LESS_THAN = false -> kind_eqb k TK_LESS_THAN_EXCLAMATION_MARK_MINUS_MINUS = false ->
  kind_eqb k TK_LESS_THAN_EXCLAMATION_MARK = false ->
  mem_kind k TWIG_BLOCK_OPEN_SET = true \/ mem_kind k TWIG_VAR_OPEN_SET = true \/
  mem_kind k TWIG_COMMENT_OPEN_SET = true.
Proof. intros k; destruct k; vm_compute; intros; try discriminate; auto. Qed.

Section Html.
  Context (dbg : mode) (T : list token) (HT : T <> []).
  Context (N : nat) (HC : forall m c, m < N -> callspec dbg T m c).
  Notation wp := (WpBase.wp (bstep dbg T) (wf T) (allowed dbg T) False).

  Ltac wspec1 :=
    match goal with
    | |- WpBase.wp _ _ _ _ _ (recover _) _ _ _ _ =>
        apply wp_recover; [lia|
        let r' := fresh "r" in let tl := fresh "tl" in let HL := fresh "HL" in intros r' tl HL _ _]
    | |- WpBase.wp _ _ _ _ _ (expect _ _) _ _ _ _ =>
        apply (wp_expect dbg T HT); [try first [assumption|reflexivity]|lia|
        let a := fresh "a" in let r' := fresh "r" in let tl := fresh "tl" in let HL := fresh "HL" in intros a r' tl HL _ _]
    | |- WpBase.wp _ _ _ _ _ (expect_any _ _) _ _ _ _ =>
        apply (wp_expect_any dbg T HT); [try first [assumption|reflexivity]|lia|
        let a := fresh "a" in let r' := fresh "r" in let tl := fresh "tl" in let HL := fresh "HL" in intros a r' tl HL _]
    | |- WpBase.wp _ _ _ _ _ parse_twig_name _ _ _ _ =>
        apply wp_name;
        let a := fresh "a" in let r' := fresh "r" in let tl := fresh "tl" in let HL := fresh "HL" in intros a r' tl HL _ ?
    | |- WpBase.wp _ _ _ _ _ (opt_bump _) _ _ _ _ =>
        apply wp_opt_bump;
        let r' := fresh "r" in let tl := fresh "tl" in let HL := fresh "HL" in intros r' tl HL
    | |- WpBase.wp _ _ _ _ _ parse_twig_expression _ _ _ _ => unfold parse_twig_expression
    | |- WpBase.wp _ _ _ _ _ (parse_twig_expression_binding_power _) _ _ _ _ =>
        apply (wp_expr dbg T N HC); [lia|lia|fresh_post]; cbn [cpost] in *
    | |- WpBase.wp _ _ _ _ _ (call_child _) _ _ _ _ => apply (wp_child dbg T N HC); [lia|lia|fresh_post]
    | |- WpBase.wp _ _ _ _ _ (parse_arguments _) _ _ _ _ => apply (wp_arguments dbg T HT N HC); [lia|lia|fresh_post]
    | |- WpBase.wp _ _ _ _ _ (parse_twig_string _) _ _ _ _ => apply (wp_string dbg T HT N HC); [lia|lia|assumption|assumption|fresh_post]
    | |- WpBase.wp _ _ _ _ _ parse_twig_hash _ _ _ _ => apply (wp_hash dbg T HT N HC); [lia|lia|assumption|assumption|fresh_post]
    | |- drop_trivia _ <> [] => ne2_tac
    end.
  (** close a goal with the continuation hypothesis *)
  Ltac fin HQ :=
    repeat match goal with a : unit |- _ => destruct a end;
    list_norm;
    first [ eapply HQ
          | match goal with |- ?q ?a ?r ?i ?s => rewrite <- (app_nil_r i); eapply HQ end ];
    unfold node_post, node_lt, node_opt, any_post in *;
    repeat match goal with |- _ /\ _ => split end; try exact I; try assumption; try lia; try in_ids; eauto.
  Ltac wgen go :=
    match goal with
    | |- WpBase.wp _ _ _ _ _ (@bind unit _ (bind _ _) _) _ _ _ _ =>
        apply wp_join;
        [ let Q' := fresh "Qj" in let HQ' := fresh "HQj" in intros Q' HQ';
          match goal with |- WpBase.wp _ _ _ _ _ _ _ ?i _ _ =>
            revert HQ'; generalize i; let i' := fresh "itj" in intros i' HQ' end; go; fin HQ'
        | let r' := fresh "r" in let tl := fresh "tl" in let HL := fresh "HL" in intros r' tl HL ]
    | _ => wstep
    | _ => wspec1
    end.
  Ltac wgo1 := repeat wgen ltac:(repeat (wstep || wspec1)).
  Ltac spec L := apply L; [..|fresh_post]; try lia; auto.

  Ltac wspec2 :=
    match goal with
    | |- WpBase.wp _ _ _ _ _ (parse_body _ _) _ _ _ _ =>
        apply (wp_body dbg T HT N HC); [lia|lia|repeat first [apply looks_look | apply looks_or]|fresh_post]
    | |- WpBase.wp _ _ _ _ _ (parse_ending _ _ _ _ _) _ _ _ _ =>
        apply (wp_ending dbg T HT N HC); [lia|lia|try reflexivity|fresh_post]
    | |- WpBase.wp _ _ _ _ _ (expression_or _ _) _ _ _ _ => apply (wp_expression_or dbg T HT N HC); [lia|lia|fresh_post]
    | |- WpBase.wp _ _ _ _ _ (name_or _ _) _ _ _ _ => apply (wp_name_or dbg T HT N HC); [lia|lia|fresh_post]
    | |- WpBase.wp _ _ _ _ _ (string_or _ _) _ _ _ _ => apply (wp_string_or dbg T HT N HC); [lia|lia|fresh_post]
    | |- WpBase.wp _ _ _ _ _ (parse_end_name _ _) _ _ _ _ => apply (wp_end_name dbg T HT N HC); [lia|lia|fresh_post]
    | _ => wspec1
    end.
  Ltac wgen2 go :=
    match goal with
    | |- WpBase.wp _ _ _ _ _ (@bind unit _ (bind _ _) _) _ _ _ _ =>
        apply wp_join;
        [ let Q' := fresh "Qj" in let HQ' := fresh "HQj" in intros Q' HQ';
          match goal with |- WpBase.wp _ _ _ _ _ _ _ ?i _ _ =>
            revert HQ'; generalize i; let i' := fresh "itj" in intros i' HQ' end; go; fin HQ'
        | let r' := fresh "r" in let tl := fresh "tl" in let HL := fresh "HL" in intros r' tl HL ]
    | _ => wstep
    | _ => wspec2
    end.
  Ltac wgo2 := repeat wgen2 ltac:(repeat (wstep || wspec2)).


  Lemma wp_directive : forall cl m n r its saved st, n <= N -> 2 * length r <= n -> nf r ->
    l_at_set [TK_LUDTWIG_IGNORE_FILE; TK_LUDTWIG_IGNORE] r = true -> forallb has_display cl = true ->
    TAG wp n (parse_ludtwig_directive m cl) r its m saved st.
  Proof.
    intros cl m n r its saved st HN Hf Hn Hk Hd Q HQ. unfold parse_ludtwig_directive. wgo2.
    apply wp_many_n with (c := 1); [lia|apply looks_look| |].
    - intros n1 r1 its1 Q' Hm Hf1 Hn1 Hne1 HL1 HQ'. wgo2. fin HQ'.
    - intros r' tail HL'. wgo2. fin HQ.
  Qed.

  Lemma wp_plain_comment : forall m n r its saved st, n <= N -> 2 * length r + 1 <= n ->
    TAG wp n (parse_twig_plain_comment m) r its m saved st.
  Proof.
    intros m n r its saved st HN Hf Q HQ. unfold parse_twig_plain_comment. wstep.
    apply wp_many_n with (c := 1); [lia|apply looks_look| |].
    - intros n1 r1 its1 Q' Hm Hf1 Hn1 Hne1 HL1 HQ'. wgo2. fin HQ'.
    - intros r' tail HL'. wgo2. fin HQ.
  Qed.

  Lemma wp_comment : forall n r its st, n <= N -> 2 * length r <= n -> nf r -> l_at_set TWIG_COMMENT_OPEN_SET r = true ->
    NEU wp n parse_twig_comment_statement r its st (node_lt r).
  Proof.
    intros n r its st HN Hf Hn Hk Q HQ. unfold parse_twig_comment_statement. wgo2.
    - apply wp_directive; [lia|lia|auto|auto|reflexivity|]. intros a r' tail HL' Ha. fin HQ.
    - apply wp_plain_comment; [lia|lia|]. intros a r' tail HL' Ha. fin HQ.
  Qed.

  Lemma wp_var : forall n r its st, n <= N -> 2 * length r <= n -> nf r -> l_at_set TWIG_VAR_OPEN_SET r = true ->
    NEU wp n parse_twig_var_statement r its st (node_lt r).
  Proof. intros n r its st HN Hf Hn Hk Q HQ. unfold parse_twig_var_statement. wgo2. fin HQ. Qed.

  Lemma wp_any_twig : forall c n r its st, n <= N -> 2 * length r <= n ->
    NEU wp n (parse_any_twig c) r its st (any_twig_post r).
  Proof.
    intros c n r its st HN Hf Q HQ. unfold parse_any_twig. wgo2.
    - apply (wp_block_statement dbg T HT N HC); auto; [lia|]. intros a r1 tail HL1 HP. apply HQ; [lia|].
      destruct a as [m|]; cbn [any_twig_post] in *.
      + destruct HP. split; [auto|lia].
      + rewrite Hnf in HP. rewrite Edrop. destruct HP as [(-> & -> & HB)|[H1 H2]].
        * rewrite E in HB. discriminate.
        * right. split; [exact H1|]. intros Hg. apply H2. rewrite <- Edrop. now apply ge_drop.
    - apply wp_var; auto; [lia|]. fresh_post. destruct HP. wgo2. apply HQ; [lia|]. split; [auto|lia].
    - apply wp_comment; auto; [lia|]. fresh_post. destruct HP. wgo2. apply HQ; [lia|]. split; [auto|lia].
    - rewrite <- (app_nil_r its). apply HQ; [lia|]. left. rewrite E, E0, E1. auto.
  Qed.

  Lemma wp_doctype : forall n r its st, n <= N -> 2 * length r <= n -> nf r ->
    l_at TK_LESS_THAN_EXCLAMATION_MARK r = true ->
    NEU wp n parse_html_doctype r its st (node_lt r).
  Proof. intros n r its st HN Hf Hn Hk Q HQ. unfold parse_html_doctype. wgo2. fin HQ. Qed.

  Lemma wp_html_text : forall n r its st, n <= N -> 2 * length r <= n -> nf r ->
    NEU wp n parse_html_text r its st (fun a r' tail =>
      match a with
      | Some m => length r' < length r
      | None => r' = r /\ (l_at_end r || l_html_text_end r)%bool = true
      end).
  Proof.
    intros n r its st HN Hf Hn Q HQ. unfold parse_html_text. wstep. wstep. wstep.
    { wstep. rewrite <- (app_nil_r its). apply HQ; auto. }
    wstep. wstep. wstep. unfold parse_many. apply orb_false_iff in E as [E1 E2]. apply l_at_end_ne in E1.
    assert (HF : forall r1 its1, length r1 < length r ->
      wp n (c <- complete m HTML_TEXT ;; Ret (Some c)) r1 its1 ((m, its) :: st) Q).
    { intros r1 its1 HL1. wgo2. apply HQ; [lia|exact HL1]. }
    apply wp_many with (c := 0) (Inv := fun _ r1 its1 => length r1 < length r \/ drop_trivia r1 = r).
    - lia.
    - auto.
    - intros _ r1 its1 [H1|H1]; [left; pose proof (drop_length r1); lia|right]. now rewrite drop_idem.
    - intros _ t ts r1 its1 tr us HI E H3 _. left. destruct HI as [H1|H1]; [lia|].
      rewrite <- H1, E. cbn. lia.
    - intros m1 [] r1 its1 Hm1 Hf1 HI Hn1 Hne1. wgo2. cbn [fst snd].
      destruct (l_html_text_end r1) eqn:E3.
      + apply HF. destruct HI as [H1|H1]; [exact H1|]. rewrite Hn1 in H1. congruence.
      + wgo2. assert (length r0 < length r).
        { destruct HI as [H1|H1]; [lia|]. rewrite Hn1 in H1. subst r1. lia. }
        repeat split; [lia|auto|]. intros. lia.
    - intros [] its1 HI. apply HF. destruct HI as [H1|H1]; [exact H1|]. cbn in H1. congruence.
  Qed.

  Lemma suffix_ge : forall r, nf r -> r <> [] -> (exists pre, T = pre ++ r) -> ge T -> ge r.
  Proof. intros r Hn Hne (p & ->). apply ge_suffix. now rewrite Hn. Qed.

  (** what the raw text loops do with one child *)
  Lemma wp_raw_child : forall s n r its st, s = SRawInner \/ s = SRawText ->
    n <= N -> 2 * length r <= n -> nf r -> r <> [] ->
    NEU wp n (r <- parse_any_twig PFRawInner ;; when (is_none r) (bump_site s ;; Ret tt)) r its st any_post.
  Proof.
    intros s n r its st Hs HN Hf Hn Hne Q HQ. apply wp_suffix. intros Hsuf.
    pose proof (suffix_ge r Hn Hne Hsuf) as Hg.
    wstep. apply wp_any_twig; [lia|lia|]. fresh_post. destruct a as [m|]; cbn [is_none any_twig_post] in *.
    - wgo2. fin HQ.
    - wstep. cbn iota. wstep. apply wp_bump_site.
      + intros E. destruct HP as [(-> & _)|[_ HP]].
        * rewrite drop_idem, Hn in E. contradiction.
        * right. split; [|destruct Hs as [->| ->]; auto]. intros HgT. apply (ge_drop_ne r0); auto.
      + bump_intro. intros _. wgo2. fin HQ.
  Qed.

  Lemma wp_raw_inner : forall n r its st, n <= N -> 2 * length r <= n ->
    NEU wp n body_raw_inner r its st any_post.
  Proof.
    intros n r its st HN Hf Q HQ. unfold body_raw_inner. wgo2.
    apply wp_many_n with (c := 0); [lia|apply looks_look| |].
    - intros n1 r1 its1 Q' Hm Hf1 Hn1 Hne1 HL1 HQ'. apply wp_raw_child; [auto|lia|lia|auto|auto|]. fresh_post. fin HQ'.
    - intros r' tail HL'. wgo2. fin HQ.
  Qed.

  Lemma wp_early_end : forall k nm met m r its st (Q : post (bool * bool)), nf r ->
    (forall b met', Q (b, met') r its st) -> wp m (early_end_tag k nm met) r its st Q.
  Proof. intros k nm met m r its st Q Hn HQ. unfold early_end_tag. wgo2; apply HQ. Qed.

  (** loops up to the end tag *)
  Lemma wp_many_end : forall k nm (child : bool -> prog bool) cc n x r its st,
    2 * length r + cc <= n ->
    (forall m x r1 its1, m <= n -> 2 * length r1 + cc <= m -> nf r1 -> r1 <> [] -> length r1 <= length r ->
       NEU wp m (child x) r1 its1 st any_post) ->
    NEU wp n (parse_many_st (early_end_tag k nm) child x) r its st any_post.
  Proof.
    intros k nm child cc n x r its st Hf Hc Q HQ.
    apply wp_many with (c := cc) (Inv := fun _ r1 its1 => length r1 <= length r /\ exists tail, its1 = its ++ tail).
    - exact Hf.
    - split; [lia|]. exists []. now rewrite app_nil_r.
    - intros _ r1 its1 [H1 H2]. split; [|exact H2]. pose proof (drop_length r1). lia.
    - intros _ t ts r1 its1 tr us [H1 (tl & ->)] _ H3 _. split; [lia|]. eexists. rewrite <- app_assoc. reflexivity.
    - intros m x1 r1 its1 Hm Hf1 (H1 & tl & ->) Hn Hne. apply wp_early_end; [exact Hn|]. intros b met'. cbn [fst snd].
      destruct b; [now apply HQ|]. apply Hc; auto. intros a r2 tail H2 _.
      rewrite <- app_assoc. split; [reflexivity|]. split; [lia|]. split; [split; [lia|eauto]|]. intros _.
      apply HQ; [lia|exact I].
    - intros x1 its1 (_ & tl & ->). apply HQ; [cbn; lia|exact I].
  Qed.

  Lemma wp_raw_text : forall k nm n r its st, n <= N -> 2 * length r <= n ->
    NEU wp n (parse_html_raw_text k nm) r its st any_post.
  Proof.
    intros k nm n r its st HN Hf Q HQ. unfold parse_html_raw_text. wstep. wstep. wstep.
    apply wp_many_end with (cc := 0); [lia| |].
    - intros m1 x r1 its1 Hm Hf1 Hn1 Hne1 HL1 Q' HQ'.
      apply wp_assoc. wstep. apply wp_raw_child; [auto|lia|lia|auto|auto|]. fresh_post. wgo2. fin HQ'.
    - fresh_post. wgo2. fin HQ.
  Qed.

  Lemma wp_plain_html_comment : forall m n r its saved st, n <= N -> 2 * length r + 1 <= n ->
    TAG wp n (parse_plain_html_comment m) r its m saved st.
  Proof.
    intros m n r its saved st HN Hf Q HQ. unfold parse_plain_html_comment. wstep.
    apply wp_many_n with (c := 1); [lia|apply looks_look| |].
    - intros n1 r1 its1 Q' Hm Hf1 Hn1 Hne1 HL1 HQ'. wgo2. fin HQ'.
    - intros r' tail HL'. wgo2. fin HQ.
  Qed.

  Lemma wp_html_comment : forall n r its st, n <= N -> 2 * length r <= n -> nf r ->
    l_at TK_LESS_THAN_EXCLAMATION_MARK_MINUS_MINUS r = true ->
    NEU wp n parse_html_comment r its st (node_lt r).
  Proof.
    intros n r its st HN Hf Hn Hk Q HQ. unfold parse_html_comment. wgo2.
    - apply wp_directive; [lia|lia|auto|auto|reflexivity|]. intros a r' tail HL' Ha. fin HQ.
    - apply wp_plain_html_comment; [lia|lia|]. intros a r' tail HL' Ha. fin HQ.
  Qed.

  Lemma wp_html_string_child : forall c n r its st, n <= N -> 2 * length r <= n ->
    NEU wp n (html_string_child c) r its st any_post.
  Proof.
    intros c n r its st HN Hf Q HQ. unfold html_string_child. wstep. apply wp_any_twig; [lia|lia|].
    fresh_post. wgo2; try solve [fin HQ].
    apply orb_false_iff in E0 as [_ E0]. ne_tac.
  Qed.

  Lemma wp_inner_double : forall n r its st, n <= N -> 2 * length r <= n ->
    NEU wp n inner_double_quote_parser r its st any_post.
  Proof.
    intros n r its st HN Hf Q HQ. unfold inner_double_quote_parser. wstep.
    apply wp_many_n with (c := 0); [lia|apply looks_look| |].
    - intros n1 r1 its1 Q' Hm Hf1 Hn1 Hne1 HL1 HQ'. apply wp_html_string_child; [lia|lia|]. fresh_post. fin HQ'.
    - intros r' tail HL'. wgo2. fin HQ.
  Qed.
  Lemma wp_inner_single : forall n r its st, n <= N -> 2 * length r <= n ->
    NEU wp n inner_single_quote_parser r its st any_post.
  Proof.
    intros n r its st HN Hf Q HQ. unfold inner_single_quote_parser. wstep.
    apply wp_many_n with (c := 0); [lia|apply looks_look| |].
    - intros n1 r1 its1 Q' Hm Hf1 Hn1 Hne1 HL1 HQ'. apply wp_html_string_child; [lia|lia|]. fresh_post. fin HQ'.
    - intros r' tail HL'. wgo2. fin HQ.
  Qed.

  Lemma wp_inner_no_quote : forall n r its st, n <= N -> 2 * length r <= n ->
    NEU wp n inner_no_quote_parser r its st any_post.
  Proof.
    intros n r its st HN Hf Q HQ. unfold inner_no_quote_parser. wgo2; try solve [fin HQ].
    apply wp_var; auto; [lia|]. fresh_post. wgo2. fin HQ.
  Qed.

  Lemma wp_attr_value : forall n r its st, n <= N -> 2 * length r <= n ->
    NEU wp n parse_html_attribute_value_string r its st any_post.
  Proof.
    intros n r its st HN Hf Q HQ. unfold parse_html_attribute_value_string. wstep. wstep. wstep. wstep. wstep. wstep.
    wstep.
    - wstep. wstep. wstep.
      assert (Hq : tk_kind t = TK_DOUBLE_QUOTES \/ tk_kind t = TK_SINGLE_QUOTES).
      { rewrite Hnf in Ebump. rewrite Ebump in E. apply mem_kind_in in E. destruct E as [E|[E|[]]]; auto. }
      wstep. wstep.
      destruct Hq as [Hq|Hq]; rewrite Hq; cbn iota.
      + wstep. wstep. apply wp_inner_double; [lia|lia|]. fresh_post. cbn [is_some]. wgo2; fin HQ.
      + wstep. wstep. apply wp_inner_single; [lia|lia|]. fresh_post. cbn [is_some]. wgo2; fin HQ.
    - wstep. wstep. wstep. wstep. apply wp_inner_no_quote; [lia|lia|]. fresh_post. cbn [is_some]. wgo2; fin HQ.
  Qed.

  Lemma wp_attr_rest : forall m n r its saved st, n <= N -> 2 * length r <= n ->
    forall Q : post (option nat),
    (forall a r' tail, length r' <= length r -> Q a r' (saved ++ tail) st) ->
    wp n (parse_html_attribute_rest m) r its ((m, saved) :: st) Q.
  Proof.
    intros m n r its saved st HN Hf Q HQ. unfold parse_html_attribute_rest. wgo2.
    - apply wp_attr_value; [lia|lia|]. fresh_post. wgo2. apply HQ. lia.
    - apply HQ. lia.
  Qed.

  Lemma wp_attr : forall n r its st, n <= N -> 2 * length r <= n ->
    NEU wp n body_attr r its st any_post.
  Proof.
    intros n r its st HN Hf Q HQ. unfold body_attr. wstep. wstep.
    destruct (l_attr_text r0) as [tx|] eqn:Et; [|wgo2; fin HQ].
    wstep.
    - wstep. wstep. wstep. wstep. wstep. wstep. wstep.
      + wstep. unfold l_attr_text in Et. rewrite E0 in Et.
        destruct r0 as [|x [|y l]]; [discriminate|discriminate|].
        cbn [nth_error] in Et. injection Et as <-. apply attr_colon in E.
        eapply wp_bump_n; [exact Hnf|cbn in E0; now apply kind_eqb_eq|exact E|].
        * intros tr us HL1. wgo2. apply wp_attr_rest; [lia|lia|]. intros. apply HQ; [lia|exact I].
      + wstep. wstep.
        * rewrite Hnf. unfold l_attr_text in Et. rewrite E0 in Et. destruct r0; discriminate.
        * wgo2. apply wp_attr_rest; [lia|lia|]. intros. apply HQ; [lia|exact I].
    - wstep. wstep. wstep. wstep. wstep.
      + wstep. wstep. wstep. apply wp_var; [lia|lia|auto|auto|]. fresh_post. destruct HP.
        apply wp_attr_rest; [lia|lia|]. intros. apply HQ; [lia|exact I].
      + apply wp_any_twig; [lia|lia|]. fresh_post. apply HQ; [lia|exact I].
  Qed.

  Lemma wp_attribute_list : forall n r its st, n <= N -> 2 * length r + 1 <= n ->
    NEU wp n parse_attribute_list r its st any_post.
  Proof.
    intros n r its st HN Hf Q HQ. unfold parse_attribute_list. wgo2.
    apply wp_many_n with (c := 1); [lia|apply looks_look| |].
    - intros n1 r1 its1 Q' Hm Hf1 Hn1 Hne1 HL1 HQ'. wgo2. fin HQ'.
    - intros r' tail HL'. wgo2. fin HQ.
  Qed.

  Lemma wp_ending_tag : forall k nm met n r its st, n <= N -> 2 * length r <= n ->
    NEU wp n (parse_html_ending_tag k nm met) r its st any_post.
  Proof.
    intros k nm met n r its st HN Hf Q HQ. unfold parse_html_ending_tag. wgo2; fin HQ.
  Qed.

  Lemma wp_element : forall n r its st, n <= N -> 2 * length r <= n -> nf r -> l_at TK_LESS_THAN r = true ->
    NEU wp n parse_html_element r its st (node_lt r).
  Proof.
    intros n r its st HN Hf Hn Hk Q HQ. unfold parse_html_element. do 11 wstep.
    cbv zeta.
    apply wp_join.
    - intros Q' HQ'. revert HQ'. generalize ([] ++ [ITok tr (tk_kind t) us]). intros itj HQ'.
      destruct r1 as [|x l].
      + cbn [hd_error]. change (kind_eqb TK_WORD TK_TWIG_COMPONENT_NAME) with false.
        change (rfull HTML_TAG_NAME_REGEX []) with false. cbn iota. wgo2. fin HQ'.
      + assert (x :: l <> []) by discriminate. cbn [hd_error]. wgo2; fin HQ'.
    - intros r2 tl2 HL2. wstep. apply wp_attribute_list; [lia|lia|]. fresh_post.
      set (tag_name := match hd_error r1 with Some t => tk_text t | None => [] end).
      set (tag_kind := match hd_error r1 with Some t => tk_kind t | None => TK_WORD end).
      set (raw := existsb (text_eqb (map to_lower_ascii tag_name)) HTML_RAW_TEXT_ELEMENTS).
      set (void := existsb (text_eqb (map to_lower_ascii tag_name)) HTML_VOID_ELEMENTS).
      assert (HY : forall b r3 its3, length r3 <= length r2 ->
        wp n (complete m0 HTML_STARTING_TAG ;;
              if b || void then complete m HTML_TAG else
              body_m <- start ;;
              met <- (if raw then parse_html_raw_text tag_kind tag_name
                      else parse_many_st (early_end_tag tag_kind tag_name)
                            (fun met => call_child PFAny ;; Ret met) false) ;;
              complete body_m BODY ;;
              parse_html_ending_tag tag_kind tag_name met ;;
              complete m HTML_TAG) r3 its3 ((m0, []) :: (m, its) :: st) Q).
      { intros b r5 its3 HL3. wgo2.
        - fin HQ.
        - apply wp_raw_text; [lia|lia|]. fresh_post. wgo2. apply wp_ending_tag; [lia|lia|]. fresh_post. wgo2. fin HQ.
        - apply wp_many_end with (cc := 1); [lia| |].
          + intros n1 x r6 its4 Hm Hf4 Hn4 Hne4 HL4 Q' HQ'. wgo2. fin HQ'.
          + fresh_post. wgo2. apply wp_ending_tag; [lia|lia|]. fresh_post. wgo2. fin HQ. }
      repeat first [apply HY; lia | wstep | wspec2].
  Qed.

  Lemma wp_any_html : forall n r its st, n <= N -> 2 * length r <= n ->
    NEU wp n parse_any_html r its st (fun a r' tail =>
      match a with
      | Some _ => length r' < length r
      | None => r' = drop_trivia r /\ (r' = [] \/ l_at TK_LESS_THAN_SLASH r' = true \/
                  l_at_set TWIG_BLOCK_OPEN_SET r' = true \/ l_at_set TWIG_VAR_OPEN_SET r' = true \/
                  l_at_set TWIG_COMMENT_OPEN_SET r' = true)
      end).
  Proof.
    intros n r its st HN Hf Q HQ. unfold parse_any_html. wstep. wstep. wstep.
    - apply andb_true_iff in E as [E _]. wstep. apply wp_element; auto; [lia|]. fresh_post. destruct HP. wgo2.
      apply HQ; lia.
    - wgo2.
      + apply wp_html_comment; auto; [lia|]. fresh_post. destruct HP. wgo2. apply HQ; lia.
      + apply wp_doctype; auto; [lia|]. fresh_post. destruct HP. wgo2. apply HQ; lia.
      + apply wp_html_text; auto; [lia|]. fresh_post. apply HQ; [lia|]. destruct a as [m|]; [lia|].
        destruct HP as [-> HP]. split; [auto|]. apply orb_true_iff in HP as [HP|HP].
        { left. now apply l_at_end_nil. }
        unfold l_html_text_end in HP. apply orb_true_iff in HP as [HP|HP].
        { right. left. destruct r0 as [|x l]; [discriminate|]. cbn in HP |- *. now rewrite orb_false_r in HP. }
        right. right. apply andb_true_iff in HP as [HG HP]. rewrite HP, andb_true_r in E.
        destruct r0 as [|x l]; [discriminate|]. cbn [l_at_set l_at] in *.
        now apply general_kinds.
  Qed.

  Lemma wp_any : forall n r its st, n <= N -> 2 * length r <= n ->
    NEU wp n body_any r its st (cpost (CChild PFAny) r).
  Proof.
    intros n r its st HN Hf Q HQ. unfold body_any. wstep. apply wp_any_twig; [lia|lia|]. fresh_post.
    destruct a as [m|]; cbn [any_twig_post] in HP.
    - destruct HP. wgo2. apply HQ; [lia|]. cbn. lia.
    - apply wp_any_html; [lia|lia|]. intros a r1 tl1 HL1 HP1. list_norm. pose proof (drop_length r) as HD. apply HQ; [lia|].
      cbn [cpost]. destruct a as [m|].
      + destruct HP as [(-> & _)|[HP _]]; lia.
      + destruct HP1 as [-> HP1]. destruct HP as [(-> & -> & HB)|[HP _]].
        * rewrite drop_idem in *. right. split; [reflexivity|].
          apply orb_false_iff in HB as [HB HB3]. apply orb_false_iff in HB as [HB1 HB2].
          destruct HP1 as [HP1|[HP1|[HP1|[HP1|HP1]]]]; auto; congruence.
        * left. pose proof (drop_length r0). lia.
  Qed.

  Theorem callspec_all : forall c n, n <= N -> callspec dbg T n c.
  Proof.
    intros [bp|f] n HN.
    - now apply (wp_body_expression dbg T HT N HC).
    - destruct f; intros r its st Hf; cbn [body].
      + now apply wp_any.
      + now apply wp_raw_inner.
      + now apply wp_inner_double.
      + now apply wp_inner_single.
      + now apply wp_attr.
  Qed.
End Html.

Theorem callspec_holds : forall dbg T, T <> [] -> forall m c, callspec dbg T m c.
Proof.
  intros dbg T HT m. induction m as [m IH] using (well_founded_induction lt_wf). intros c.
  apply (callspec_all dbg T HT m); [intros; now apply IH|lia].
Qed.

(** The root: everything is consumed, and only the open root node is left. *)
Theorem root_wp_mode : forall dbg T, T <> [] ->
  WpBase.wp (bstep dbg T) (wf T) (allowed dbg T) False (2 * length T + 1) root_body T [] [(0, [])]
    (fun _ r its st => drop_trivia r = [] /\ st = [(0, [])]).
Proof.
  intros dbg T HT. unfold root_body. set (N := 2 * length T + 1).
  assert (HC : forall m c, m < N -> callspec dbg T m c) by (intros; now apply callspec_holds).
  unfold parse_many.
  apply wp_many with (c := 1) (Inv := fun _ r1 its1 => True); [subst N; lia|auto|auto|auto| |auto].
  intros m [] r its Hm Hf _ Hn Hne. wstep. wstep. wstep. cbn [fst snd]. wstep.
  apply (wp_callc dbg T N HC); [lia|lia|]. intros a r1 tl1 HL1 HP. cbn [cpost] in HP.
  destruct a as [c|]; cbn [is_none].
  - wstep. wstep. cbn [when]. wstep. repeat split; auto. lia.
  - rewrite Hn in HP. wstep. wstep. wstep. wstep. wstep. unfold when. wstep.
    + apply negb_true_iff in E. wstep. apply wp_add_error; [exact HT|]. intros r2 E2 Hn2 HL2.
      rewrite Hnf in E2. subst r2. apply wp_recover; [lia|]. intros r3 tl3 HL3 _ Hpr. rewrite Hnf in Hpr.
      assert (length r3 < length r).
      { destruct HP as [HP|[HP1 HP2]]; [lia|]. subst r1. rewrite Hn in Edrop. subst r0.
        destruct HP2 as [->|HP2]; [discriminate|].
        destruct Hpr as [->|[Hpr|[Hpr|Hpr]]]; [discriminate| | |lia].
        - destruct r; discriminate.
        - destruct r as [|x l]; [discriminate|]. cbn [l_at l_at_set] in *. apply kind_eqb_eq in HP2. rewrite HP2 in Hpr.
          discriminate. }
      repeat split; auto; lia.
    + apply negb_false_iff in E. apply l_at_end_nil in E. wstep. subst r0.
      repeat split; auto; [cbn; lia|]. now rewrite E.
Qed.

(** * The builds *)
Definition allowed_in (dbg : bool) (T : list token) (q : panic) : Prop :=
  (dbg = true /\ q = PDebugAssert SArrow) \/
  (~ ge T /\ (q = PBump SArrow \/ q = PBump SRawInner \/ q = PBump SRawText)).

Lemma run_ext (S : Type) (st1 st2 : forall B : Set, op B -> S -> res (B * S)) :
  (forall (B : Set) (o : op B) s, st1 B o s = st2 B o s) ->
  forall n (A : Set) (p : prog A) s, run st1 n p s = run st2 n p s.
Proof.
  intros Hs. induction n as [n IHn] using (well_founded_induction lt_wf).
  assert (RB : forall (A B : Type) (r1 r2 : res A) (f g : A -> res B), r1 = r2 -> (forall a, f a = g a) -> rbind r1 f = rbind r2 g).
  { intros A B r1 r2 f g -> H. destruct r2; cbn [rbind]; auto. }
  intros A p. induction p as [A a|A B o k IH|A c k IH|A X B f IHf x k IH]; intros s.
  - now rewrite !run_Ret.
  - rewrite !run_Op. apply RB; auto.
  - rewrite !run_Call. apply RB; [|auto]. destruct n as [|n]; [reflexivity|]. apply IHn. lia.
  - rewrite !run_Iter. apply RB; [|auto]. apply RB; [auto|]. intros [[x'|b] s1]; cbn [fst snd].
    + destruct n as [|n]; [reflexivity|]. apply IHn. lia.
    + reflexivity.
Qed.

Lemma wp_build : forall dbg T (A : Set) n (p : prog A) r its st Q,
  WpBase.wp (bstep (build dbg) T) (wf T) (allowed (build dbg) T) False n p r its st Q ->
  WpBase.wp (tstep false dbg T) (wf T) (allowed_in dbg T) False n p r its st Q.
Proof.
  intros dbg T A n p r its st Q H s Hi Hr Hs Ht. specialize (H s Hi Hr Hs Ht).
  rewrite (run_ext _ _ _ (bstep_build dbg T)) in H. destruct (run _ _ _ _) as [[a s']|q|]; cbn [holds] in *; auto.
  destruct H as [[H E]|H]; [left|right; exact H]. split; [|exact E]. destruct dbg; [reflexivity|]. now contradiction H.
Qed.

Theorem root_wp : forall dbg T, T <> [] ->
  WpBase.wp (tstep false dbg T) (wf T) (allowed_in dbg T) False (2 * length T + 1) root_body T [] [(0, [])]
    (fun _ r its st => drop_trivia r = [] /\ st = [(0, [])]).
Proof. intros dbg T HT. now apply wp_build, root_wp_mode. Qed.
