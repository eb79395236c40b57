(** Total correctness of the Twig tag grammar (GrammarTags.v). *)
From Coq Require Import NArith String Bool Arith Lia List.
Import ListNotations.
From Verif Require Import Text Kind Regex Lexer LexerProofs ParserApi GrammarExpr GrammarTags GrammarHtml
  Machine TreeMachine Simulation TreeSpec WpBase Total TotalApi TotalExpr.
Local Notation length := List.length (only parsing).
Local Open Scope string_scope.
Local Open Scope list_scope.
Local Open Scope prog_scope.

(** A function that completes the marker [m] it is given. *)
Set Warnings "-inconsistent-scopes".
Notation TAG wp n p r its m saved st :=
  (forall Q : post nat, (forall a r' tail, length r' <= length r -> In a (ids tail) -> Q a r' (saved ++ tail) st) ->
     wp n p r its ((m, saved) :: st) Q) (only parsing).

Section Tags.
  Context (dbg : mode) (T : list token) (HT : T <> []).
  Context (N : nat) (HC : forall m c, m < N -> callspec dbg T m c).
  Notation wp := (WpBase.wp (bstep dbg T) (wf T) (allowed dbg T) False).

  Ltac wspec1 :=
    match goal with
    | |- WpBase.wp _ _ _ _ _ (recover _) _ _ _ _ =>
        apply wp_recover; [lia|
        let r' := fresh "r" in let tl := fresh "tl" in let HL := fresh "HL" in intros r' tl HL _ _]
    | |- WpBase.wp _ _ _ _ _ (expect _ _) _ _ _ _ =>
        apply (wp_expect dbg T HT); [try first [assumption|reflexivity]|lia|
        let a := fresh "a" in let r' := fresh "r" in let tl := fresh "tl" in let HL := fresh "HL" in intros a r' tl HL _ _]
    | |- WpBase.wp _ _ _ _ _ (expect_any _ _) _ _ _ _ =>
        apply (wp_expect_any dbg T HT); [try first [assumption|reflexivity]|lia|
        let a := fresh "a" in let r' := fresh "r" in let tl := fresh "tl" in let HL := fresh "HL" in intros a r' tl HL _]
    | |- WpBase.wp _ _ _ _ _ parse_twig_name _ _ _ _ =>
        apply wp_name;
        let a := fresh "a" in let r' := fresh "r" in let tl := fresh "tl" in let HL := fresh "HL" in intros a r' tl HL _ ?
    | |- WpBase.wp _ _ _ _ _ (opt_bump _) _ _ _ _ =>
        apply wp_opt_bump;
        let r' := fresh "r" in let tl := fresh "tl" in let HL := fresh "HL" in intros r' tl HL
    | |- WpBase.wp _ _ _ _ _ parse_twig_expression _ _ _ _ => unfold parse_twig_expression
    | |- WpBase.wp _ _ _ _ _ (parse_twig_expression_binding_power _) _ _ _ _ =>
        apply (wp_expr dbg T N HC); [lia|lia|fresh_post]; cbn [cpost] in *
    | |- WpBase.wp _ _ _ _ _ (call_child _) _ _ _ _ => apply (wp_child dbg T N HC); [lia|lia|fresh_post]
    | |- WpBase.wp _ _ _ _ _ (parse_arguments _) _ _ _ _ => apply (wp_arguments dbg T HT N HC); [lia|lia|fresh_post]
    | |- WpBase.wp _ _ _ _ _ (parse_twig_string _) _ _ _ _ => apply (wp_string dbg T HT N HC); [lia|lia|assumption|assumption|fresh_post]
    | |- WpBase.wp _ _ _ _ _ parse_twig_hash _ _ _ _ => apply (wp_hash dbg T HT N HC); [lia|lia|assumption|assumption|fresh_post]
    | |- drop_trivia _ <> [] => ne2_tac
    end.
  (** close a goal with the continuation hypothesis *)
  Ltac fin HQ :=
    repeat match goal with a : unit |- _ => destruct a end;
    list_norm;
    first [ eapply HQ
          | match goal with |- ?q ?a ?r ?i ?s => rewrite <- (app_nil_r i); eapply HQ end ];
    unfold node_post, node_lt, node_opt, any_post in *;
    repeat match goal with |- _ /\ _ => split end; try exact I; try assumption; try lia; try in_ids; eauto.
  Ltac wgen go :=
    match goal with
    | |- WpBase.wp _ _ _ _ _ (@bind unit _ (bind _ _) _) _ _ _ _ =>
        apply wp_join;
        [ let Q' := fresh "Qj" in let HQ' := fresh "HQj" in intros Q' HQ';
          match goal with |- WpBase.wp _ _ _ _ _ _ _ ?i _ _ =>
            revert HQ'; generalize i; let i' := fresh "itj" in intros i' HQ' end; go; fin HQ'
        | let r' := fresh "r" in let tl := fresh "tl" in let HL := fresh "HL" in intros r' tl HL ]
    | _ => wstep
    | _ => wspec1
    end.
  Ltac wgo1 := repeat wgen ltac:(repeat (wstep || wspec1)).
  Ltac spec L := apply L; [..|fresh_post]; try lia; auto.

  Lemma wp_body : forall early c n r its st, n <= N -> 2 * length r + 1 <= n -> looks dbg T early ->
    NEU wp n (parse_body early c) r its st any_post.
  Proof.
    intros early c n r its st HN Hf Hl Q HQ. unfold parse_body. wgo1.
    apply wp_many_n with (c := 1); [lia|exact Hl| |].
    - intros n1 r1 its1 Q' Hm Hf1 Hn1 Hne1 HL1 HQ'. wgo1. fin HQ'.
    - intros r' tail HL'. wgo1. fin HQ.
  Qed.

  Lemma wp_ending : forall kw r1 r2 r3 k n r its st, n <= N -> 2 * length r <= n -> has_display kw = true ->
    NEU wp n (parse_ending kw r1 r2 r3 k) r its st any_post.
  Proof. intros kw r1 r2 r3 k n r its st HN Hf Hd Q HQ. unfold parse_ending. wgo1. fin HQ. Qed.

  Lemma wp_expression_or : forall msg set n r its st, n <= N -> 2 * length r + 1 <= n ->
    NEU wp n (expression_or msg set) r its st any_post.
  Proof. intros msg set n r its st HN Hf Q HQ. unfold expression_or. wgo1; fin HQ. Qed.

  Lemma wp_name_or : forall msg set n r its st, n <= N -> 2 * length r <= n ->
    NEU wp n (name_or msg set) r its st any_post.
  Proof. intros msg set n r its st HN Hf Q HQ. unfold name_or. wgo1; fin HQ. Qed.

  Lemma wp_string_or : forall msg set n r its st, n <= N -> 2 * length r <= n ->
    NEU wp n (string_or msg set) r its st any_post.
  Proof. intros msg set n r its st HN Hf Q HQ. unfold string_or. wgo1; fin HQ. Qed.

  Lemma wp_end_name : forall what nm n r its st, n <= N -> 2 * length r <= n ->
    NEU wp n (parse_end_name what nm) r its st any_post.
  Proof.
    intros what nm n r its st HN Hf Q HQ. unfold parse_end_name. wgo1; [|fin HQ].
    destruct nm; wgo1; fin HQ.
  Qed.

  Ltac wspec2 :=
    match goal with
    | |- WpBase.wp _ _ _ _ _ (parse_body _ _) _ _ _ _ =>
        apply wp_body; [lia|lia|repeat first [apply looks_look | apply looks_or]|fresh_post]
    | |- WpBase.wp _ _ _ _ _ (parse_ending _ _ _ _ _) _ _ _ _ =>
        apply wp_ending; [lia|lia|try reflexivity|fresh_post]
    | |- WpBase.wp _ _ _ _ _ (expression_or _ _) _ _ _ _ => apply wp_expression_or; [lia|lia|fresh_post]
    | |- WpBase.wp _ _ _ _ _ (name_or _ _) _ _ _ _ => apply wp_name_or; [lia|lia|fresh_post]
    | |- WpBase.wp _ _ _ _ _ (string_or _ _) _ _ _ _ => apply wp_string_or; [lia|lia|fresh_post]
    | |- WpBase.wp _ _ _ _ _ (parse_end_name _ _) _ _ _ _ => apply wp_end_name; [lia|lia|fresh_post]
    | _ => wspec1
    end.
  Ltac wgen2 go :=
    match goal with
    | |- WpBase.wp _ _ _ _ _ (@bind unit _ (bind _ _) _) _ _ _ _ =>
        apply wp_join;
        [ let Q' := fresh "Qj" in let HQ' := fresh "HQj" in intros Q' HQ';
          match goal with |- WpBase.wp _ _ _ _ _ _ _ ?i _ _ =>
            revert HQ'; generalize i; let i' := fresh "itj" in intros i' HQ' end; go; fin HQ'
        | let r' := fresh "r" in let tl := fresh "tl" in let HL := fresh "HL" in intros r' tl HL ]
    | _ => wstep
    | _ => wspec2
    end.
  Ltac wgo2 := repeat wgen2 ltac:(repeat (wstep || wspec2)).

  Lemma wp_cache : forall c m n r its saved st, n <= N -> 2 * length r <= n -> nf r -> l_at TK_CACHE r = true ->
    TAG wp n (parse_twig_cache m c) r its m saved st.
  Proof. intros c m n r its saved st HN Hf Hn Hk Q HQ. unfold parse_twig_cache. wgo2; fin HQ. Qed.

  Lemma wp_with : forall c m n r its saved st, n <= N -> 2 * length r <= n -> nf r -> l_at TK_WITH r = true ->
    TAG wp n (parse_twig_with m c) r its m saved st.
  Proof. intros c m n r its saved st HN Hf Hn Hk Q HQ. unfold parse_twig_with. wgo2; fin HQ. Qed.

  Lemma wp_macro : forall c m n r its saved st, n <= N -> 2 * length r <= n -> nf r -> l_at TK_MACRO r = true ->
    TAG wp n (parse_twig_macro m c) r its m saved st.
  Proof. intros c m n r its saved st HN Hf Hn Hk Q HQ. unfold parse_twig_macro. wgo2; fin HQ. Qed.

  Lemma wp_verbatim : forall c m n r its saved st, n <= N -> 2 * length r <= n -> nf r -> l_at TK_VERBATIM r = true ->
    TAG wp n (parse_twig_verbatim m c) r its m saved st.
  Proof. intros c m n r its saved st HN Hf Hn Hk Q HQ. unfold parse_twig_verbatim. wgo2; fin HQ. Qed.

  Lemma wp_sandbox : forall c m n r its saved st, n <= N -> 2 * length r <= n -> nf r -> l_at TK_SANDBOX r = true ->
    TAG wp n (parse_twig_sandbox m c) r its m saved st.
  Proof. intros c m n r its saved st HN Hf Hn Hk Q HQ. unfold parse_twig_sandbox. wgo2; fin HQ. Qed.

  Lemma wp_flush : forall m n r its saved st, n <= N -> 2 * length r <= n -> nf r -> l_at TK_FLUSH r = true ->
    TAG wp n (parse_twig_flush m) r its m saved st.
  Proof. intros m n r its saved st HN Hf Hn Hk Q HQ. unfold parse_twig_flush. wgo2; fin HQ. Qed.

  Lemma wp_do : forall m n r its saved st, n <= N -> 2 * length r <= n -> nf r -> l_at TK_DO r = true ->
    TAG wp n (parse_twig_do m) r its m saved st.
  Proof. intros m n r its saved st HN Hf Hn Hk Q HQ. unfold parse_twig_do. wgo2; fin HQ. Qed.

  Lemma wp_deprecated : forall m n r its saved st, n <= N -> 2 * length r <= n -> nf r -> l_at TK_DEPRECATED r = true ->
    TAG wp n (parse_twig_deprecated m) r its m saved st.
  Proof. intros m n r its saved st HN Hf Hn Hk Q HQ. unfold parse_twig_deprecated. wgo2; fin HQ. Qed.

  Lemma wp_autoescape : forall c m n r its saved st, n <= N -> 2 * length r <= n -> nf r -> l_at TK_AUTOESCAPE r = true ->
    TAG wp n (parse_twig_autoescape m c) r its m saved st.
  Proof. intros c m n r its saved st HN Hf Hn Hk Q HQ. unfold parse_twig_autoescape. wgo2; fin HQ. Qed.

  (** the filter chain of an apply tag *)
  Lemma wp_filters : forall c n r its tl st, n <= N -> 2 * length r + 1 <= n -> In c (ids tl) ->
    NEU2 wp n (parse_many_st (fun node => b <- at_twig_block_close ;; Ret (b, node))
      (fun node => If at_ TK_SINGLE_PIPE Then parse_twig_filter node Else Ret node) c) r its tl st node_post.
  Proof.
    intros c n r its tl st HN Hf Hc Q HQ.
    apply wp_many with (c := 1) (Inv := fun c1 r1 its1 => length r1 <= length r /\
       exists tl1, its1 = its ++ tl1 /\ In c1 (ids tl1)).
    - lia.
    - split; [lia|eauto].
    - intros c1 r1 its1 [H1 H2]. split; [|exact H2]. pose proof (drop_length r1). lia.
    - intros c1 t ts r1 its1 tr us [H1 (tl1 & -> & H2)] _ H3 _. split; [lia|]. eexists. rewrite <- app_assoc.
      split; [reflexivity|]. in_ids.
    - intros m c1 r1 its1 Hm Hf1 (H1 & tl1 & -> & Hc1) Hn1 Hne1. wgo2. cbn [fst snd].
      destruct (l_at_set TWIG_BLOCK_CLOSE_SET r1); [now apply HQ|]. wgo2.
      + apply (wp_filter dbg T HT N HC); auto; [lia|lia|]. fresh_post. destruct HP.
        split; [reflexivity|]. split; [lia|]. split; [split; [lia|eauto]|]. intros. lia.
      + split; [reflexivity|]. split; [lia|]. split; [split; [lia|eauto]|]. intros _. now apply HQ.
    - intros c1 its1 (_ & tl1 & -> & Hc1). apply HQ; [cbn; lia|exact Hc1].
  Qed.

  Lemma wp_apply : forall c m n r its saved st, n <= N -> 2 * length r <= n -> nf r -> l_at TK_APPLY r = true ->
    TAG wp n (parse_twig_apply m c) r its m saved st.
  Proof.
    intros c m n r its saved st HN Hf Hn Hk Q HQ. unfold parse_twig_apply. wstep. wstep. wstep. wstep. wstep. wspec1.
    match goal with |- WpBase.wp _ _ _ _ _ (bind _ ?k) _ _ _ _ =>
      assert (HY : forall r' itj, length r' <= length r0 -> wp n (k tt) r' itj ((m, saved) :: st) Q)
    end.
    { intros r' itj HL1. wgo2; fin HQ. }
    wstep. destruct a as [node|].
    - destruct H0 as [Hi HL']. wgo2. rewrite <- app_assoc. apply wp_filters; [lia|lia|in_ids|].
      fresh_post. wstep. apply HY. lia.
    - wstep. wstep. wspec2. apply HY. lia.
  Qed.

  Lemma wp_import : forall m n r its saved st, n <= N -> 2 * length r <= n -> nf r -> l_at_set [TK_IMPORT; TK_SW_IMPORT] r = true ->
    TAG wp n (parse_twig_import m) r its m saved st.
  Proof. intros m n r its saved st HN Hf Hn Hk Q HQ. unfold parse_twig_import. wgo2; fin HQ. Qed.

  Lemma wp_override : forall d n r its st, n <= N -> 2 * length r + 1 <= n ->
    NEU wp n (parse_name_as_name_override d) r its st any_post.
  Proof. intros d n r its st HN Hf Q HQ. unfold parse_name_as_name_override. wgo2; fin HQ. Qed.

  (** loops carrying a counter *)
  Lemma wp_many_c : forall f (child : nat -> prog nat) n x r its st,
    2 * length r + 1 <= n ->
    (forall m x r1 its1, m <= n -> 2 * length r1 + 1 <= m -> nf r1 -> r1 <> [] -> length r1 <= length r ->
       NEU wp m (child x) r1 its1 st any_post) ->
    NEU wp n (parse_many_st (fun x => b <- look f ;; Ret (b, x)) child x) r its st any_post.
  Proof.
    intros f child n x r its st Hf Hc Q HQ.
    apply wp_many with (c := 1) (Inv := fun _ r1 its1 => length r1 <= length r /\ exists tail, its1 = its ++ tail).
    - exact Hf.
    - split; [lia|]. exists []. now rewrite app_nil_r.
    - intros _ r1 its1 [H1 H2]. split; [|exact H2]. pose proof (drop_length r1). lia.
    - intros _ t ts r1 its1 tr us [H1 (tl & ->)] _ H3 _. split; [lia|]. eexists. rewrite <- app_assoc. reflexivity.
    - intros m x1 r1 its1 Hm Hf1 (H1 & tl & ->) Hn Hne. wgo2. cbn [fst snd].
      destruct (f r1); [now apply HQ|]. apply Hc; auto. intros a r2 tail H2 _.
      rewrite <- app_assoc. split; [reflexivity|]. split; [lia|]. split; [split; [lia|eauto]|]. intros _. apply HQ; [lia|exact I].
    - intros x1 its1 (_ & tl & ->). apply HQ; [cbn; lia|exact I].
  Qed.

  Lemma wp_overrides : forall d n r its st, n <= N -> 2 * length r + 1 <= n ->
    NEU wp n (parse_overrides d) r its st any_post.
  Proof.
    intros d n r its st HN Hf. unfold parse_overrides. apply wp_many_c; [exact Hf|].
    intros m x r1 its1 Hm Hf1 Hn1 Hne1 HL1 Q HQ. wgo2. apply wp_override; [lia|lia|]. fresh_post. wgo2; fin HQ.
  Qed.

  Lemma wp_from : forall m n r its saved st, n <= N -> 2 * length r <= n -> nf r -> l_at_set [TK_FROM; TK_SW_FROM] r = true ->
    TAG wp n (parse_twig_from m) r its m saved st.
  Proof.
    intros m n r its saved st HN Hf Hn Hk Q HQ. unfold parse_twig_from. wgo2.
    apply wp_overrides; [lia|lia|]. fresh_post. wgo2; fin HQ.
  Qed.

  Lemma wp_use : forall m n r its saved st, n <= N -> 2 * length r <= n -> nf r -> l_at_set [TK_USE; TK_SW_USE] r = true ->
    TAG wp n (parse_twig_use m) r its m saved st.
  Proof.
    intros m n r its saved st HN Hf Hn Hk Q HQ. unfold parse_twig_use. wgo2.
    - apply wp_overrides; [lia|lia|]. fresh_post. wgo2; fin HQ.
    - fin HQ.
  Qed.

  Lemma wp_include_with : forall set n r its st, n <= N -> 2 * length r + 1 <= n ->
    NEU wp n (parse_include_with set) r its st any_post.
  Proof. intros set n r its st HN Hf Q HQ. unfold parse_include_with. wgo2; fin HQ. Qed.

  Ltac wspec3 :=
    match goal with
    | |- WpBase.wp _ _ _ _ _ (parse_include_with _) _ _ _ _ => apply wp_include_with; [lia|lia|fresh_post]
    end.
  Ltac wgo3 := repeat (wgen2 ltac:(repeat (wstep || wspec2)) || wspec3).

  Lemma wp_embed : forall c m n r its saved st, n <= N -> 2 * length r <= n -> nf r -> l_at_set [TK_EMBED; TK_SW_EMBED] r = true ->
    TAG wp n (parse_twig_embed m c) r its m saved st.
  Proof.
    intros c m n r its saved st HN Hf Hn Hk Q HQ. unfold parse_twig_embed. wstep. wstep. wstep. wstep. wstep.
    destruct (l_at TK_SW_EMBED r); wgo3; fin HQ.
  Qed.

  Lemma wp_include : forall m n r its saved st, n <= N -> 2 * length r <= n -> nf r -> l_at TK_INCLUDE r = true ->
    TAG wp n (parse_twig_include m) r its m saved st.
  Proof. intros m n r its saved st HN Hf Hn Hk Q HQ. unfold parse_twig_include. wgo3; fin HQ. Qed.

  Lemma wp_extends : forall m n r its saved st, n <= N -> 2 * length r <= n -> nf r -> l_at TK_EXTENDS r = true ->
    TAG wp n (parse_twig_extends m) r its m saved st.
  Proof. intros m n r its saved st HN Hf Hn Hk Q HQ. unfold parse_twig_extends. wgo3; fin HQ. Qed.

  Lemma wp_for : forall c m n r its saved st, n <= N -> 2 * length r <= n -> nf r -> l_at TK_FOR r = true ->
    TAG wp n (parse_twig_for m c) r its m saved st.
  Proof. intros c m n r its saved st HN Hf Hn Hk Q HQ. unfold parse_twig_for. wgo3; fin HQ. Qed.

  Lemma wp_set_assignment : forall n r its st, n <= N -> 2 * length r + 1 <= n ->
    NEU wp n parse_set_assignment r its st any_post.
  Proof.
    intros n r its st HN Hf Q HQ. unfold parse_set_assignment. wstep. wstep. wstep.
    apply wp_many_c; [lia| |].
    - intros m1 x r1 its1 Hm Hf1 Hn1 Hne1 HL1 Q' HQ'. wgo3; fin HQ'.
    - fresh_post. wgo3; try solve [fin HQ]; (apply wp_many_c; [lia| |]).
      all: try solve [intros m1 x r1' its1 Hm Hf1 Hn1 Hne1 HL1' Q' HQ'; wgo3; fin HQ'].
      all: fresh_post; wgo3; fin HQ.
  Qed.

  Lemma wp_set : forall c m n r its saved st, n <= N -> 2 * length r <= n -> nf r -> l_at TK_SET r = true ->
    TAG wp n (parse_twig_set m c) r its m saved st.
  Proof.
    intros c m n r its saved st HN Hf Hn Hk Q HQ. unfold parse_twig_set. wgo3.
    apply wp_set_assignment; [lia|lia|]. fresh_post. wgo3; fin HQ.
  Qed.

  Lemma wp_block : forall c m n r its saved st, n <= N -> 2 * length r <= n -> nf r -> l_at TK_BLOCK r = true ->
    TAG wp n (parse_twig_block m c) r its m saved st.
  Proof. intros c m n r its saved st HN Hf Hn Hk Q HQ. unfold parse_twig_block. wgo3; fin HQ. Qed.

  Lemma wp_if_branches : forall c n r its st, n <= N -> 2 * length r + 1 <= n ->
    NEU wp n (parse_if_branches c) r its st any_post.
  Proof.
    intros c n r its st HN Hf Q HQ. unfold parse_if_branches.
    eapply wp_iter with
      (J := fun m (x : unit) r1 its1 st1 => 2 * length r1 + 1 <= m /\ length r1 <= length r /\ st1 = st /\
         exists tl1, its1 = its ++ tl1)
      (QB := fun (x : unit) r1 its1 st1 => length r1 <= length r /\ st1 = st /\ exists tl1, its1 = its ++ tl1).
    - repeat split; [lia|lia|]. exists []. now rewrite app_nil_r.
    - intros m [] r1 its1 st1 Hm (Hf1 & HL1 & -> & tl1 & ->). wgo3.
      all: try (destruct m as [|m]; [lia|]); list_norm; repeat split; try lia; eauto.
    - intros [] r1 its1 st1 (HL1 & -> & tl1 & ->). wgo3. now apply HQ.
  Qed.

  Lemma wp_if : forall c m n r its saved st, n <= N -> 2 * length r <= n -> nf r -> l_at TK_IF r = true ->
    TAG wp n (parse_twig_if m c) r its m saved st.
  Proof.
    intros c m n r its saved st HN Hf Hn Hk Q HQ. unfold parse_twig_if. wgo3.
    apply wp_if_branches; [lia|lia|]. fresh_post. wgo3; fin HQ.
  Qed.

  Lemma wp_trans : forall c m n r its saved st, n <= N -> 2 * length r <= n -> nf r -> l_at TK_TRANS r = true ->
    TAG wp n (parse_twig_trans m c) r its m saved st.
  Proof. intros c m n r its saved st HN Hf Hn Hk Q HQ. unfold parse_twig_trans. wgo3; fin HQ. Qed.

  Lemma wp_props : forall m n r its saved st, n <= N -> 2 * length r <= n -> nf r -> l_at TK_PROPS r = true ->
    TAG wp n (parse_twig_props m) r its m saved st.
  Proof.
    intros m n r its saved st HN Hf Hn Hk Q HQ. unfold parse_twig_props. wgo3.
    apply wp_many_n with (c := 1); [lia|apply looks_look| |].
    - intros m1 r1 its1 Q' Hm Hf1 Hn1 Hne1 HL1 HQ'. wgo3; fin HQ'.
    - intros r' tail HL'. wgo3; fin HQ.
  Qed.

  Lemma wp_component : forall c m n r its saved st, n <= N -> 2 * length r <= n -> nf r -> l_at TK_COMPONENT r = true ->
    TAG wp n (parse_twig_component m c) r its m saved st.
  Proof. intros c m n r its saved st HN Hf Hn Hk Q HQ. unfold parse_twig_component. wgo3; fin HQ. Qed.

  Lemma wp_sw_thumbnails : forall m n r its saved st, n <= N -> 2 * length r <= n -> nf r -> l_at TK_SW_THUMBNAILS r = true ->
    TAG wp n (parse_twig_sw_thumbnails m) r its m saved st.
  Proof. intros m n r its saved st HN Hf Hn Hk Q HQ. unfold parse_twig_sw_thumbnails. wgo3; fin HQ. Qed.

  Lemma wp_sw_icon : forall m n r its saved st, n <= N -> 2 * length r <= n -> nf r -> l_at TK_SW_ICON r = true ->
    TAG wp n (parse_twig_sw_icon m) r its m saved st.
  Proof. intros m n r its saved st HN Hf Hn Hk Q HQ. unfold parse_twig_sw_icon. wgo3; fin HQ. Qed.

  Lemma wp_sw_return : forall m n r its saved st, n <= N -> 2 * length r <= n -> nf r -> l_at TK_RETURN r = true ->
    TAG wp n (parse_twig_sw_return m) r its m saved st.
  Proof. intros m n r its saved st HN Hf Hn Hk Q HQ. unfold parse_twig_sw_return. wgo3; fin HQ. Qed.

  Lemma wp_sw_sfc : forall c m n r its saved st, n <= N -> 2 * length r <= n -> nf r -> l_at TK_SW_SILENT_FEATURE_CALL r = true ->
    TAG wp n (parse_twig_sw_silent_feature_call m c) r its m saved st.
  Proof. intros c m n r its saved st HN Hf Hn Hk Q HQ. unfold parse_twig_sw_silent_feature_call. wgo3; fin HQ. Qed.

  Lemma wp_sw_extends : forall m n r its saved st, n <= N -> 2 * length r <= n -> nf r -> l_at TK_SW_EXTENDS r = true ->
    TAG wp n (parse_twig_sw_extends m) r its m saved st.
  Proof. intros m n r its saved st HN Hf Hn Hk Q HQ. unfold parse_twig_sw_extends. wgo3; fin HQ. Qed.

  Lemma wp_sw_include : forall m n r its saved st, n <= N -> 2 * length r <= n -> nf r -> l_at TK_SW_INCLUDE r = true ->
    TAG wp n (parse_twig_sw_include m) r its m saved st.
  Proof. intros m n r its saved st HN Hf Hn Hk Q HQ. unfold parse_twig_sw_include. wgo3; fin HQ. Qed.

  (** What follows the opening of a block: either a tag is parsed and the marker completed, or
      nothing is consumed. *)
  Lemma wp_shopware : forall c m n r its saved st, n <= N -> 2 * length r <= n ->
    forall Q : post (option nat),
      (forall a r' tail, length r' <= length r -> In a (ids tail) -> Q (Some a) r' (saved ++ tail) st) ->
      Q None (drop_trivia r) its ((m, saved) :: st) ->
      wp n (parse_shopware_twig_block_statement m c) r its ((m, saved) :: st) Q.
  Proof.
    intros c m n r its saved st HN Hf Q HQ HQ0. unfold parse_shopware_twig_block_statement. wgo3.
    1: apply wp_sw_extends; auto; [lia|]. 2: apply wp_sw_include; auto; [lia|].
    3: apply wp_sw_sfc; auto; [lia|]. 4: apply wp_sw_return; auto; [lia|].
    5: apply wp_sw_icon; auto; [lia|]. 6: apply wp_sw_thumbnails; auto; [lia|].
    all: try (intros a r' tail HL' Ha; wgo3; apply HQ; [lia|exact Ha]).
    rewrite <- Edrop. exact HQ0.
  Qed.

  Definition any_twig_post (r : list token) (a : option nat) (r' : list token) (tail : list item) : Prop :=
    match a with
    | Some m => In m (ids tail) /\ length r' < length r
    | None => (r' = drop_trivia r /\ tail = [] /\
               (l_at_set TWIG_BLOCK_OPEN_SET r' || l_at_set TWIG_VAR_OPEN_SET r' || l_at_set TWIG_COMMENT_OPEN_SET r')%bool = false)
              \/ (length r' < length (drop_trivia r) /\ (ge r -> ge r'))
    end.

  Lemma wp_block_statement : forall c n r its st, n <= N -> 2 * length r <= n -> nf r ->
    l_at_set TWIG_BLOCK_OPEN_SET r = true ->
    NEU wp n (parse_twig_block_statement c) r its st (any_twig_post r).
  Proof.
    intros c n r its st HN Hf Hn Hk Q HQ. unfold parse_twig_block_statement. do 8 wstep.
    assert (HX : forall a r' tail, length r' <= length r0 -> In a (ids tail) -> Q (Some a) r' (its ++ tail) st).
    { intros a r' tail H1 H2. apply HQ; [lia|]. split; [exact H2|lia]. }
    wgo3.
    Ltac one L HX := apply L; [lia|lia|assumption|assumption|
      let a := fresh "a" in let r' := fresh "r" in let tl := fresh "tl" in let H1 := fresh in let H2 := fresh in
      intros a r' tl H1 H2; wstep; apply HX; [lia|exact H2]].
    1: one wp_block HX. 1: one wp_if HX. 1: one wp_set HX. 1: one wp_for HX. 1: one wp_extends HX.
    1: one wp_include HX. 1: one wp_embed HX. 1: one wp_use HX. 1: one wp_from HX. 1: one wp_import HX.
    1: one wp_apply HX. 1: one wp_autoescape HX. 1: one wp_deprecated HX. 1: one wp_do HX. 1: one wp_flush HX.
    1: one wp_sandbox HX. 1: one wp_verbatim HX. 1: one wp_macro HX. 1: one wp_with HX. 1: one wp_cache HX.
    1: one wp_trans HX. 1: one wp_component HX. 1: one wp_props HX.
    apply wp_shopware; [lia|lia| |].
    - intros a r' tail H1 H2. wgo3. apply HX; [lia|exact H2].
    - wgo3. apply HQ.
      + pose proof (drop_length r1). lia.
      + right. pose proof (drop_length r1). rewrite Ebump. cbn [List.length]. split; [lia|]. intros Hg.
        rewrite <- Edrop0. apply ge_drop. rewrite <- Edrop. apply ge_drop. rewrite Hn in Ebump. rewrite Ebump in Hg.
        apply ge_drop. apply (ge_cons t); [|exact Hg]. apply not_closer_kind.
        apply (no_closer_spec TWIG_BLOCK_OPEN_SET); [reflexivity|]. rewrite Ebump in Hk. exact Hk.
  Qed.
End Tags.
