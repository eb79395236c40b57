(** Total correctness of the Twig expression grammar (GrammarExpr.v). *)
From Coq Require Import NArith String Bool Arith Lia List.
Import ListNotations.
From Verif Require Import Text Kind Regex Lexer LexerProofs ParserApi GrammarExpr GrammarTags GrammarHtml
  Machine TreeMachine Simulation TreeSpec WpBase Total TotalApi.
Local Notation length := List.length (only parsing).
Local Open Scope string_scope.
Local Open Scope list_scope.
Local Open Scope prog_scope.

(** * More look-ahead facts *)

Lemma follow_ne : forall x l r, l_following_content (x :: l) r = true -> r <> [].
Proof. intros x l [|]; [discriminate|discriminate]. Qed.

Lemma follow_second : forall k1 c1 x l r t ts, nf r ->
  l_following_content ((k1, c1) :: x :: l) r = true -> drop_trivia r = t :: ts -> drop_trivia ts <> [].
Proof.
  intros k1 c1 [k2 c2] l r t ts Hn H E. rewrite Hn in E. subst r. pose proof (nf_cons _ _ Hn) as Ht.
  unfold l_following_content, nontriv in H. cbn [filter] in H. rewrite Ht in H. cbn [negb] in H.
  cbn [l_follow] in H. destruct (kind_eqb (tk_kind t) k1 && _); [|discriminate].
  apply drop_nontriv. unfold nontriv. destruct (filter _ ts); discriminate.
Qed.

Lemma twig_tag_ne : forall k r, l_twig_tag k r = true -> r <> [].
Proof. intros k [|]; discriminate. Qed.
Lemma twig_tag_second : forall k r t ts, nf r -> l_twig_tag k r = true -> drop_trivia r = t :: ts ->
  drop_trivia ts <> [].
Proof.
  intros k r t ts Hn H E. rewrite Hn in E. subst r. unfold l_twig_tag in H. apply andb_true_iff in H as [_ H].
  cbn [l_next_kind] in H. apply drop_nontriv. destruct (nontriv ts); [|discriminate]. discriminate.
Qed.

Lemma at_set_display : forall ks r t ts, nf r -> l_at_set ks r = true -> drop_trivia r = t :: ts ->
  forallb has_display ks = true -> has_display (tk_kind t) = true.
Proof.
  intros ks r t ts Hn H E Hd. rewrite Hn in E. subst r. rewrite forallb_forall in Hd. apply Hd.
  apply mem_kind_in. exact H.
Qed.

Ltac ne2_tac :=
  match goal with
  | |- drop_trivia ?r <> [] =>
    match goal with
    | Hn : nf r, H : l_following _ r = true |- _ => exact (nf_ne r Hn (follow_ne _ _ r H))
    | Hn : nf r, H : l_following_content _ r = true |- _ => exact (nf_ne r Hn (follow_ne _ _ r H))
    | Hn : nf r, H : l_twig_tag _ r = true |- _ => exact (nf_ne r Hn (twig_tag_ne _ r H))
    | E : drop_trivia ?r0 = _ :: r, Hn : nf ?r0, H : l_following _ ?r0 = true |- _ =>
        exact (follow_second _ _ _ _ r0 _ r Hn H E)
    | E : drop_trivia ?r0 = _ :: r, Hn : nf ?r0, H : l_following_content _ ?r0 = true |- _ =>
        exact (follow_second _ _ _ _ r0 _ r Hn H E)
    | E : drop_trivia ?r0 = _ :: r, Hn : nf ?r0, H : l_twig_tag _ ?r0 = true |- _ =>
        exact (twig_tag_second _ r0 _ r Hn H E)
    | _ => assumption
    end
  end.

(** * Recursive calls *)

(** What is known after a recursive call on remaining tokens [r] with result [a], remaining
    tokens [r'] and new items [tail]. *)
Definition cpost (c : call) (r : list token) (a : option nat) (r' : list token) (tail : list item) : Prop :=
  match c with
  | CExpr _ => match a with
               | Some m => In m (ids tail) /\ length r' < length r
               | None => r' = drop_trivia r /\ tail = []
               end
  | CChild PFAny => match a with
               | Some _ => length r' < length r
               | None => length r' < length (drop_trivia r) \/
                         (r' = drop_trivia r /\ (r' = [] \/ l_at TK_LESS_THAN_SLASH r' = true))
               end
  | CChild _ => True
  end.

(** [NEU n p r its st P]: [p] only adds items and gives a result as described by [P]. *)
Set Warnings "-inconsistent-scopes".
Notation NEU wp n p r its st P :=
  (forall Q : post _, (forall a r' tail, length r' <= length r -> P a r' tail -> Q a r' (its ++ tail) st) ->
     wp n p r its st Q) (only parsing).
(** The same when the items above [its] already include the node the function continues. *)
Set Warnings "-inconsistent-scopes".
Notation NEU2 wp n p r its tl st P :=
  (forall Q : post _, (forall a r' tail, length r' <= length r -> P a r' tail -> Q a r' (its ++ tail) st) ->
     wp n p r (its ++ tl) st Q) (only parsing).

Definition callspec (dbg : mode) (T : list token) (m : nat) (c : call) : Prop :=
  forall r its st, 2 * length r <= m ->
    NEU (WpBase.wp (bstep dbg T) (wf T) (allowed dbg T) False) m (body c) r its st (cpost c r).

Ltac fresh_post :=
  let a := fresh "a" in let r' := fresh "r" in let tl := fresh "tl" in
  let HL := fresh "HL" in let HP := fresh "HP" in intros a r' tl HL HP; cbv beta in HP.

Section Expr.
  Context (dbg : mode) (T : list token) (HT : T <> []).
  Context (N : nat) (HC : forall m c, m < N -> callspec dbg T m c).
  Notation wp := (WpBase.wp (bstep dbg T) (wf T) (allowed dbg T) False).

  Definition node_post (m : nat) (r' : list token) (tail : list item) : Prop := In m (ids tail).
  Definition node_lt (r : list token) (m : nat) (r' : list token) (tail : list item) : Prop :=
    In m (ids tail) /\ length r' < length r.
  Definition node_opt (r : list token) (a : option nat) (r' : list token) (tail : list item) : Prop :=
    match a with Some m => In m (ids tail) /\ length r' < length r | None => True end.
  Definition any_post {A : Set} (a : A) (r' : list token) (tail : list item) : Prop := True.

  Lemma wp_callc : forall c n r its st, n <= N -> 2 * length r + 1 <= n ->
    NEU wp n (Call c (fun r => Ret r)) r its st (cpost c r).
  Proof.
    intros c n r its st Hn Hf Q HQ. apply wp_call. destruct n as [|n]; [lia|].
    apply (HC n c); [lia|lia|]. intros a r' tail HL HP. apply wp_ret. now apply HQ.
  Qed.

  Lemma wp_child : forall f n r its st, n <= N -> 2 * length r + 1 <= n ->
    NEU wp n (call_child f) r its st any_post.
  Proof.
    intros c n r its st Hn Hf Q HQ. apply wp_call. destruct n as [|n]; [lia|].
    apply (HC n (CChild c)); [lia|lia|]. intros a r' tail HL HP. apply wp_ret. now apply HQ.
  Qed.

  Lemma wp_expr : forall bp n r its st, n <= N -> 2 * length r + 1 <= n ->
    NEU wp n (parse_twig_expression_binding_power bp) r its st (cpost (CExpr bp) r).
  Proof. intros bp. apply wp_callc. Qed.

  Ltac side := first [assumption | reflexivity | lia | in_ids | idtac].
  Ltac wspec0 :=
    match goal with
    | |- WpBase.wp _ _ _ _ _ (recover _) _ _ _ _ =>
        apply wp_recover; [lia|
        let r' := fresh "r" in let tl := fresh "tl" in let HL := fresh "HL" in intros r' tl HL _ _]
    | |- WpBase.wp _ _ _ _ _ (expect _ _) _ _ _ _ =>
        apply wp_expect; [assumption|try first [assumption|reflexivity]|lia|
        let a := fresh "a" in let r' := fresh "r" in let tl := fresh "tl" in let HL := fresh "HL" in intros a r' tl HL _ ?]
    | |- WpBase.wp _ _ _ _ _ (expect_any _ _) _ _ _ _ =>
        apply wp_expect_any; [assumption|try first [assumption|reflexivity]|lia|
        let a := fresh "a" in let r' := fresh "r" in let tl := fresh "tl" in let HL := fresh "HL" in intros a r' tl HL ?]
    | |- WpBase.wp _ _ _ _ _ parse_twig_name _ _ _ _ =>
        apply wp_name;
        let a := fresh "a" in let r' := fresh "r" in let tl := fresh "tl" in let HL := fresh "HL" in intros a r' tl HL _ ?
    | |- WpBase.wp _ _ _ _ _ (opt_bump _) _ _ _ _ =>
        apply wp_opt_bump;
        let r' := fresh "r" in let tl := fresh "tl" in let HL := fresh "HL" in intros r' tl HL
    | |- WpBase.wp _ _ _ _ _ parse_twig_expression _ _ _ _ => unfold parse_twig_expression
    | |- WpBase.wp _ _ _ _ _ (parse_twig_expression_binding_power _) _ _ _ _ =>
        apply wp_expr; [lia|lia|fresh_post]; cbn [cpost] in *
    | |- WpBase.wp _ _ _ _ _ (call_child _) _ _ _ _ => apply wp_child; [lia|lia|fresh_post]
    | |- drop_trivia _ <> [] => ne2_tac
    end.
  Ltac wgo := repeat (wstep || wspec0).
  (** close a goal with the continuation hypothesis *)
  Ltac fin HQ :=
    list_norm;
    first [ eapply HQ
          | match goal with |- ?q ?a ?r ?i ?s => rewrite <- (app_nil_r i); eapply HQ end ];
    unfold node_post, node_lt, node_opt, any_post in *;
    repeat match goal with |- _ /\ _ => split end; try exact I; try assumption; try lia; try in_ids; eauto.

  Ltac simple_lit := intros; wgo; match goal with HQ : forall a, _ |- _ => fin HQ end.

  Lemma wp_number : forall n r its st, nf r -> l_at TK_NUMBER r = true ->
    NEU wp n parse_twig_number r its st (node_lt r).
  Proof. unfold parse_twig_number. intros n r its st Hn Hk Q HQ. wgo. fin HQ. Qed.
  Lemma wp_null : forall n r its st, nf r -> l_at TK_NULL r = true ->
    NEU wp n parse_twig_null r its st (node_lt r).
  Proof. unfold parse_twig_null. intros n r its st Hn Hk Q HQ. wgo. fin HQ. Qed.
  Lemma wp_boolean : forall n r its st, nf r -> l_at_set [TK_TRUE; TK_FALSE] r = true ->
    NEU wp n parse_twig_boolean r its st (node_lt r).
  Proof. unfold parse_twig_boolean. intros n r its st Hn Hk Q HQ. wgo. fin HQ. Qed.

  Lemma wp_string_child : forall q b n r its st, n <= N -> 2 * length r + 1 <= n -> nf r -> r <> [] ->
    NEU wp n (twig_string_child q b) r its st any_post.
  Proof. intros q b n r its st HN Hf Hn Hne Q HQ. unfold twig_string_child. wgo; fin HQ. Qed.

  Lemma wp_string : forall b n r its st, n <= N -> 2 * length r <= n -> nf r ->
    l_at_set [TK_DOUBLE_QUOTES; TK_SINGLE_QUOTES] r = true ->
    NEU wp n (parse_twig_string b) r its st (node_lt r).
  Proof.
    intros b n r its st HN Hf Hn Hk Q HQ. unfold parse_twig_string. do 8 wstep.
    pose proof (at_set_display _ _ _ _ Hn Hk Ebump eq_refl) as Hd. wgo.
    apply wp_many_n with (c := 1); [lia|apply looks_look| |].
    - intros n1 r1 its1 Q' Hm Hf1 Hn1 Hne1 HL1 HQ'. apply wp_string_child; [lia|lia|auto|auto|]. intros [] r' tail HLx _. now apply HQ'.
    - intros r' tail HL'. wgo. fin HQ.
  Qed.

  Lemma wp_array : forall n r its st, n <= N -> 2 * length r <= n -> nf r ->
    l_at TK_OPEN_SQUARE r = true -> NEU wp n parse_twig_array r its st (node_lt r).
  Proof.
    intros n r its st HN Hf Hn Hk Q HQ. unfold parse_twig_array. wgo.
    apply wp_many_n with (c := 1); [lia|apply looks_look| |].
    - intros n1 r1 its1 Q' Hm Hf1 Hn1 Hne1 HL1 HQ'. wgo; fin HQ'.
    - intros r' tail HL'. wgo. fin HQ.
  Qed.

  Lemma wp_hash_key : forall n r its st, n <= N -> 2 * length r <= n ->
    NEU wp n parse_twig_hash_key r its st (node_opt r).
  Proof.
    intros n r its st HN Hf Q HQ. unfold parse_twig_hash_key.
    wstep. wstep. wstep. wstep.
    { wstep. apply wp_number; auto. fresh_post. destruct HP. wgo. fin HQ. }
    wgo.
    { apply wp_string; auto; [lia| |fresh_post].
      { rewrite <- E0. destruct r0; [reflexivity|]. cbn. now rewrite !orb_false_r, orb_comm. }
      destruct HP. wgo. fin HQ. }
    { fin HQ. } { fin HQ. }
    destruct r0 as [|t ts]; cbn [hd_error]; wgo; fin HQ.
  Qed.

  Lemma wp_hash_pair : forall n r its st, n <= N -> 2 * length r <= n ->
    NEU wp n parse_twig_hash_pair r its st any_post.
  Proof.
    intros n r its st HN Hf Q HQ. unfold parse_twig_hash_pair. wstep. apply wp_hash_key; auto. fresh_post.
    destruct a as [key|]; [destruct HP|]; wgo; fin HQ.
  Qed.

  Lemma wp_hash : forall n r its st, n <= N -> 2 * length r <= n -> nf r ->
    l_at TK_OPEN_CURLY r = true -> NEU wp n parse_twig_hash r its st (node_lt r).
  Proof.
    intros n r its st HN Hf Hn Hk Q HQ. unfold parse_twig_hash. wgo.
    apply wp_many_n with (c := 1); [lia|apply looks_look| |].
    - intros n1 r1 its1 Q' Hm Hf1 Hn1 Hne1 HL1 HQ'. wstep. apply wp_hash_pair; [lia|lia|]. fresh_post. wgo; fin HQ'.
    - intros r' tail HL'. wgo. fin HQ.
  Qed.

  Lemma wp_argument : forall n r its st, n <= N -> 2 * length r + 1 <= n ->
    NEU wp n parse_twig_function_argument r its st any_post.
  Proof. intros n r its st HN Hf Q HQ. unfold parse_twig_function_argument. wgo; fin HQ. Qed.

  Lemma wp_arguments : forall cl n r its st, n <= N -> 2 * length r + 1 <= n ->
    NEU wp n (parse_arguments cl) r its st any_post.
  Proof.
    intros cl n r its st HN Hf Q HQ. unfold parse_arguments.
    apply wp_many_n with (c := 1); [lia|apply looks_look| |].
    - intros n1 r1 its1 Q' Hm Hf1 Hn1 Hne1 HL1 HQ'. wstep. apply wp_argument; [lia|lia|]. fresh_post. wgo; fin HQ'.
    - intros r' tail HL'. fin HQ.
  Qed.

  Lemma wp_filter : forall c n r its tl st, n <= N -> 2 * length r <= n -> nf r ->
    l_at TK_SINGLE_PIPE r = true -> In c (ids tl) ->
    NEU2 wp n (parse_twig_filter c) r its tl st (node_lt r).
  Proof.
    intros c n r its tl st HN Hf Hn Hk Hc Q HQ. unfold parse_twig_filter. wgo.
    all: try (apply wp_arguments; [lia|lia|fresh_post]); wgo; fin HQ.
  Qed.

  Lemma wp_indexer : forall c n r its tl st, n <= N -> 2 * length r <= n -> nf r ->
    l_at TK_OPEN_SQUARE r = true -> In c (ids tl) ->
    NEU2 wp n (parse_twig_indexer c) r its tl st (node_lt r).
  Proof.
    intros c n r its tl st HN Hf Hn Hk Hc Q HQ. unfold parse_twig_indexer. wgo; fin HQ.
  Qed.

  Lemma wp_function : forall c n r its tl st, n <= N -> 2 * length r <= n -> nf r ->
    l_at TK_OPEN_PARENTHESIS r = true -> In c (ids tl) ->
    NEU2 wp n (parse_twig_function c) r its tl st (node_lt r).
  Proof.
    intros c n r its tl st HN Hf Hn Hk Hc Q HQ. unfold parse_twig_function. wgo.
    apply wp_arguments; [lia|lia|fresh_post]. wgo. fin HQ.
  Qed.

  Lemma wp_accessor : forall c n r its tl st, n <= N -> 2 * length r <= n -> nf r ->
    l_at TK_DOT r = true -> In c (ids tl) ->
    NEU2 wp n (parse_twig_accessor c) r its tl st (node_lt r).
  Proof.
    intros c n r its tl st HN Hf Hn Hk Hc Q HQ. unfold parse_twig_accessor. wgo.
    - apply wp_number; auto. fresh_post. destruct HP. wgo.
 fin HQ.
    - list_norm. apply wp_function; auto; [lia|in_ids|]. fresh_post. destruct HP. fin HQ.
    - fin HQ.
    - list_norm. apply wp_function; auto; [lia|in_ids|]. fresh_post. destruct HP. fin HQ.
    - fin HQ.
  Qed.

  Lemma wp_test_argument : forall c n r its tl st, n <= N -> 2 * length r + 1 <= n -> In c (ids tl) ->
    NEU2 wp n (parse_twig_test_implicit_argument c) r its tl st node_post.
  Proof.
    intros c n r its tl st HN Hf Hc Q HQ. unfold parse_twig_test_implicit_argument. wgo; fin HQ.
  Qed.

  Lemma wp_arrow : forall c n r its tl st, n <= N -> 2 * length r <= n ->
    (ge T -> drop_trivia r <> []) -> In c (ids tl) ->
    NEU2 wp n (parse_twig_arrow_function c) r its tl st (node_lt r).
  Proof.
    intros c n r its tl st HN Hf Hg Hc Q HQ. unfold parse_twig_arrow_function.
    wstep. apply wp_dassert_arrow. intros r1 E1 HL1. wgo.
    apply wp_bump_site.
    - intros E2. right. split; [|auto]. intros Hge. apply (Hg Hge). congruence.
    - bump_intro. intros _. wgo; fin HQ.
  Qed.

  Lemma wp_postfix : forall c n r its tl st, n <= N -> 2 * length r <= n -> In c (ids tl) ->
    NEU2 wp n (parse_postfix_operators c) r its tl st node_post.
  Proof.
    intros c n r its tl st HN Hf Hc Q HQ. unfold parse_postfix_operators.
    apply wp_many with (c := 0) (Inv := fun c1 r1 its1 => length r1 <= length r /\
       exists tl1, its1 = its ++ tl1 /\ In c1 (ids tl1)).
    - lia.
    - split; [lia|eauto].
    - intros c1 r1 its1 [H1 H2]. split; [|exact H2]. pose proof (drop_length r1). lia.
    - intros c1 t ts r1 its1 tr us [H1 (tl1 & -> & H2)] _ H3 _. split; [lia|]. eexists. rewrite <- app_assoc.
      split; [reflexivity|]. in_ids.
    - intros m c1 r1 its1 Hm Hf1 (H1 & tl1 & -> & Hc1) Hn1 Hne1. wstep. cbn [fst snd].
      assert (HX : forall (a : nat) (r' : list token) (tail : list item), length r' <= length r1 -> In a (ids tail) ->
        st = st /\ length r' <= length r1 /\
        (length r' <= length r /\ exists tl2, its ++ tail = its ++ tl2 /\ In a (ids tl2)) /\
        (length r' = length r1 -> Q a r' (its ++ tail) st)).
      { intros a r' tail HLa Ha. repeat split; auto; [lia|eauto|]. intros _. apply HQ; [lia|exact Ha]. }
      wgo.
      + apply wp_accessor; auto; [lia|lia|]. fresh_post. destruct HP. now apply HX.
      + apply wp_indexer; auto; [lia|lia|]. fresh_post. destruct HP. now apply HX.
      + apply wp_filter; auto; [lia|lia|]. fresh_post. destruct HP. now apply HX.
      + now apply HX.
    - intros c1 its1 (_ & tl1 & -> & Hc1). apply HQ; [cbn; lia|exact Hc1].
  Qed.

  Lemma wp_literal : forall n r its st, n <= N -> 2 * length r <= n ->
    NEU wp n parse_twig_literal r its st (cpost (CExpr 0) r).
  Proof.
    intros n r its st HN Hf Q HQ. unfold parse_twig_literal. wstep. wstep. wstep.
    assert (HX : forall m r' tail, length r' <= length r0 -> node_lt r0 m r' tail -> Q (Some m) r' (its ++ tail) st).
    { intros m r' tail H1 (H2 & H3). apply HQ; [lia|]. cbn. split; [exact H2|lia]. }
    wgo.
    - apply wp_number; auto. fresh_post. wgo. now apply HX.
    - apply wp_string; auto; [lia|]. fresh_post. wgo. now apply HX.
    - apply wp_array; auto; [lia|]. fresh_post. wgo. now apply HX.
    - apply wp_null; auto. fresh_post. wgo. now apply HX.
    - apply wp_boolean; auto. fresh_post. wgo. now apply HX.
    - apply wp_hash; auto; [lia|]. fresh_post. wgo. now apply HX.
    - destruct a as [node|].
      2:{ wgo. destruct H as [-> ->]. apply HQ; [lia|]. cbn. rewrite Hnf. auto. }
      destruct H as [Hi HL1].
      wgo.
      + apply wp_function; auto; [lia|]. fresh_post. destruct HP. wgo. apply HX; [lia|]. split; [auto|lia].
      + list_norm. apply wp_arrow; auto; [lia| |in_ids|].
        { intros _. rewrite Hnf0. now apply l_at_ne in E6. }
        fresh_post. destruct HP. wgo. list_norm. apply HX; [lia|]. split; [auto|lia].
      + assert (HY : wp n (Ret (Some node)) r2 (its ++ tl) st Q) by (wgo; apply HX; [lia|split; [auto|lia]]).
        assert (HZ : wp n (n0 <- parse_twig_test_implicit_argument node ;; Ret (Some n0)) r2 (its ++ tl) st Q).
        { wstep. apply wp_test_argument; [lia|lia|auto|]. fresh_post. wgo. apply HX; [lia|]. split; [exact HP|lia]. }
        destruct (l_kind r0) as [k|]; [|exact HY].
        destruct (kind_eq_dec k TK_SAME_AS) as [->|N1]; [exact HZ|].
        destruct (kind_eq_dec k TK_DIVISIBLE_BY) as [->|N2]; [exact HZ|].
        destruct k; try exact HY; congruence.
  Qed.

  Lemma wp_conditional : forall c n r its tl st, n <= N -> 2 * length r <= n -> In c (ids tl) ->
    NEU2 wp n (parse_conditional_expression c) r its tl st
      (fun a r' tail => match a with Some m => In m (ids tail) | None => In c (ids tail) end).
  Proof.
    intros c n r its tl st HN Hf Hc Q HQ. unfold parse_conditional_expression. wgo; try fin HQ.
  Qed.

  Lemma wp_binary_loop : forall bp c n r its tl st, n <= N -> 2 * length r <= n -> In c (ids tl) ->
    NEU2 wp n (binary_loop bp c) r its tl st (fun a r' tail => In (fst a) (ids tail)).
  Proof.
    intros bp c n r its tl st HN Hf Hc Q HQ. unfold binary_loop.
    eapply wp_iter with
      (J := fun m (x : nat * bool) r1 its1 st1 => 2 * length r1 <= m /\ length r1 <= length r /\ st1 = st /\
         exists tl1, its1 = its ++ tl1 /\ In (fst x) (ids tl1))
      (QB := fun (x : nat * bool) r1 its1 st1 => length r1 <= length r /\ st1 = st /\
         exists tl1, its1 = its ++ tl1 /\ In (fst x) (ids tl1)).
    - repeat split; eauto.
    - intros m [lhs ib] r1 its1 st1 Hm (Hf1 & HL1 & -> & tl1 & -> & Hc1). cbn [fst] in Hc1. wgo.
      destruct (match hd_error r0 with Some t => _ | None => None end) as [[l rr]|] eqn:Eb.
      2:{ wgo. repeat split; eauto. lia. }
      assert (Hne : r0 <> []) by (destruct r0; [discriminate|discriminate]).
      wgo.
      + repeat split; eauto; lia.
      + repeat split; [lia|]. rewrite <- !app_assoc. eexists. split; [reflexivity|]. cbn [fst]. in_ids.
      + destruct m as [|m]; [lia|]. repeat split; try lia. rewrite <- !app_assoc. eexists. split; [reflexivity|]. cbn [fst]. in_ids.
    - intros [c1 b] r1 its1 st1 (HL1 & -> & tl1 & -> & Hc1). wgo. now apply HQ.
  Qed.

  Lemma wp_rhs : forall bp c n r its tl st, n <= N -> 2 * length r <= n -> In c (ids tl) ->
    NEU2 wp n (parse_twig_expression_binding_power_rhs bp c) r its tl st node_post.
  Proof.
    intros bp c n r its tl st HN Hf Hc Q HQ. unfold parse_twig_expression_binding_power_rhs.
    wstep. apply wp_binary_loop; auto. intros [c1 b] r1 tl1 HL1 Hc1. cbn [fst] in Hc1. wgo.
    - list_norm. apply wp_conditional; [lia|lia|in_ids|]. fresh_post. destruct a; wgo; fin HQ.
    - fin HQ.
    - apply wp_conditional; [lia|lia|in_ids|]. fresh_post. destruct a; wgo; fin HQ.
    - fin HQ.
  Qed.

  Lemma wp_paren : forall n r its st (Q : post (nat * bool)), n <= N -> 2 * length r <= n -> nf r ->
    l_at TK_OPEN_PARENTHESIS r = true ->
    (forall m b r' tail, length r' < length r ->
       (b = false -> nf r' /\ (l_at TK_COMMA r' || l_at TK_CLOSE_PARENTHESIS r')%bool = true) ->
       Q (m, b) r' tail ((m, its) :: st)) ->
    wp n parse_paren_expression r its st Q.
  Proof.
    intros n r its st Q HN Hf Hn Hk HQ. unfold parse_paren_expression. do 9 wstep.
    wstep. wstep.
    - wstep. wspec0. destruct a as [lit|].
      + destruct H0 as [Hi HL3]. wgo.
        * apply HQ; [lia|]. intros _. rewrite E0. auto.
        * apply HQ; [lia|]. intros _. split; [auto|].
          destruct r3 as [|x xs]; [discriminate|]. cbn [l_following map l_following_content] in E1.
          unfold l_following, l_following_content, nontriv in E1. cbn [filter map] in E1.
          rewrite (nf_cons _ _ Hnf0) in E1. cbn [negb l_follow] in E1. cbn [l_at].
          destruct (kind_eqb (tk_kind x) TK_CLOSE_PARENTHESIS); [apply orb_true_r|discriminate].
        * apply wp_function; auto; [lia|]. fresh_post. destruct HP. wgo.
          apply wp_postfix; auto; [lia|]. fresh_post. wgo. list_norm.
          apply wp_rhs; auto; [lia|in_ids|]. fresh_post. wgo. apply HQ; [lia|discriminate].
        * apply wp_postfix; auto; [lia|]. fresh_post. wgo. list_norm.
          apply wp_rhs; auto; [lia|in_ids|]. fresh_post. wgo. apply HQ; [lia|discriminate].
      + wgo. apply HQ; [lia|discriminate].
    - wgo. apply HQ; [lia|discriminate].
  Qed.

  Lemma wp_paren_arrow : forall m n r its saved st, n <= N -> 2 * length r <= n -> nf r ->
    (l_at TK_COMMA r || l_at TK_CLOSE_PARENTHESIS r)%bool = true ->
    forall Q : post nat,
    (forall a r' tail, length r' <= length r -> In a (ids tail) -> Q a r' (saved ++ tail) st) ->
    wp n (parse_paren_arrow_function m) r its ((m, saved) :: st) Q.
  Proof.
    intros m n r its saved st HN Hf Hn Hk Q HQ. unfold parse_paren_arrow_function.
    apply wp_suffix. intros Hs.
    assert (Hne : r <> []) by (destruct r; [discriminate|discriminate]).
    assert (Hg : ge T -> ge r).
    { destruct Hs as (p & ->). apply ge_suffix. now rewrite Hn. }
    wstep. wstep. wstep. unfold parse_many.
    apply wp_many with (c := 0) (Inv := fun _ r1 its1 => length r1 <= length r /\ (ge T -> ge r1)).
    - lia.
    - auto.
    - intros _ r1 its1 [H1 H2]. split; [pose proof (drop_length r1); lia|]. intros Hx. apply ge_drop. auto.
    - intros _ t ts r1 its1 tr us [H1 H2] E H3 Hu. split; [lia|]. intros Hx. apply (ge_cons t).
      + apply not_closer_kind. rewrite Hu. reflexivity.
      + rewrite <- E. apply ge_drop. auto.
    - intros m1 [] r1 its1 Hm1 Hf1 [H1 H2] Hn1 Hne1.
      assert (HE : forall r2 its2, length r2 <= length r -> (ge T -> ge r2) ->
        wp n (expect TK_CLOSE_PARENTHESIS TWIG_EXPRESSION_RECOVERY_SET ;;
              last_node <- complete m TWIG_ARGUMENTS ;; parse_twig_arrow_function last_node) r2 its2
              ((m, saved) :: st) Q).
      { intros r2 its2 HL2 Hg2. wstep. apply wp_expect; [assumption|reflexivity|lia|].
        intros a r3 tl3 HL3 Hk3 _. wgo. apply wp_arrow; [lia|lia| |in_ids|].
        - intros Hx. apply ge_drop_ne. apply Hk3; [reflexivity|reflexivity|auto].
        - fresh_post. destruct HP. apply HQ; [lia|auto]. }
      wgo; cbn [fst snd]. destruct (l_at TK_CLOSE_PARENTHESIS r1).
      { apply HE; auto. }
      wstep.
      apply wp_expect; [assumption|reflexivity|lia|]. intros a r2 tl2 HL2 Hk2 _.
      wstep. apply wp_name. intros a3 r3 tl3 HL3 Hg3 _.
      wstep. repeat split; try lia.
      + intros Hx. apply Hg3. apply Hk2; [reflexivity|reflexivity|auto].
      + intros _. apply HE; [lia|]. intros Hx. apply Hg3. apply Hk2; [reflexivity|reflexivity|auto].
    - intros [] its1 [_ H2]. wstep. apply wp_expect; [assumption|reflexivity|cbn; lia|].
        intros a r3 tl3 HL3 Hk3 _. cbn in HL3. wgo. apply wp_arrow; [lia|lia| |in_ids|].
        + intros Hx. apply ge_drop_ne. apply Hk3; [reflexivity|reflexivity|auto].
        + fresh_post. destruct HP. apply HQ; [lia|auto].
  Qed.

  Lemma wp_unary : forall n r its st, n <= N -> 2 * length r <= n -> nf r ->
    l_at_set [TK_MINUS; TK_PLUS; TK_NOT; TK_TRIPLE_DOT] r = true ->
    NEU wp n parse_unary_expression r its st (node_lt r).
  Proof.
    intros n r its st HN Hf Hn Hk Q HQ. unfold parse_unary_expression. wgo.
    assert (Hu : exists bp, unary_binding_power (tk_kind t) = Some bp).
    { rewrite Hn in Ebump. subst r. apply mem_kind_in in Hk. cbn in Hk.
      destruct Hk as [<-|[<-|[<-|[<-|[]]]]]; cbn; eauto. }
    destruct Hu as [bp ->]. wgo. fin HQ.
  Qed.

  Lemma wp_lhs : forall n r its st, n <= N -> 2 * length r <= n ->
    NEU wp n parse_twig_expression_lhs r its st (cpost (CExpr 0) r).
  Proof.
    intros n r its st HN Hf Q HQ. unfold parse_twig_expression_lhs. wgo.
    - apply wp_paren; auto; [lia|]. intros m b r1 tl1 HL1 Hb. wgo.
      + apply wp_postfix; [lia|lia|in_ids|]. fresh_post. wgo. apply HQ; [lia|]. split; [exact HP|lia].
      + destruct (Hb eq_refl) as [Hn1 Hk1]. apply wp_paren_arrow; auto; [lia|]. intros a r2 tl2 HL2 Ha. wgo.
        apply HQ; [lia|]. split; [exact Ha|lia].
    - apply wp_unary; auto; [lia|]. fresh_post. destruct HP. wgo. apply HQ; [lia|]. split; [assumption|lia].
    - apply wp_literal; auto; [lia|]. fresh_post. cbn [cpost] in HP. destruct a as [m|].
      + destruct HP. wgo. apply wp_postfix; auto; [lia|]. fresh_post. wgo. apply HQ; [lia|]. split; [assumption|lia].
      + destruct HP as [-> ->]. wgo. apply HQ; [lia|]. cbn. rewrite Hnf. auto.
  Qed.

  Theorem wp_body_expression : forall bp n, n <= N -> callspec dbg T n (CExpr bp).
  Proof.
    intros bp n HN r its st Hf Q HQ. change (body (CExpr bp)) with (body_expression bp). unfold body_expression.
    wstep. apply wp_lhs; auto. fresh_post. cbn [cpost] in *. destruct a as [m|].
    - destruct HP. wgo. list_norm. apply wp_rhs; [lia|lia|in_ids|]. fresh_post. wgo. apply HQ; [lia|]. split; [exact HP|lia].
    - wgo. now apply HQ.
  Qed.
End Expr.
