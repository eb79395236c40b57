(** Specifications of the parser methods of ParserApi.v and the small helpers of the grammar
    (total correctness, see Total.v). *)
From Coq Require Import NArith String Bool Arith Lia List.
Import ListNotations.
From Verif Require Import Text Kind Regex Lexer LexerProofs ParserApi GrammarExpr GrammarTags GrammarHtml
  Machine TreeMachine Simulation TreeSpec WpBase Total.
Local Notation length := List.length (only parsing).
Local Open Scope string_scope.
Local Open Scope list_scope.
Local Open Scope prog_scope.

(** * Look-ahead facts *)

Lemma l_at_ne : forall k r, l_at k r = true -> r <> [].
Proof. intros k [|]; [discriminate|discriminate]. Qed.
Lemma l_at_set_ne : forall k r, l_at_set k r = true -> r <> [].
Proof. intros k [|]; [discriminate|discriminate]. Qed.
Lemma l_at_end_ne : forall r, l_at_end r = false -> r <> [].
Proof. intros [|]; [discriminate|discriminate]. Qed.
Lemma l_at_end_nil : forall r, l_at_end r = true -> r = [].
Proof. intros [|]; [reflexivity|discriminate]. Qed.
Lemma nf_ne : forall r, nf r -> r <> [] -> drop_trivia r <> [].
Proof. intros r H. now rewrite H. Qed.

(** A kind whose [Display] does not panic. *)
Definition has_display (k : kind) : bool := match kind_display k with Some _ => true | None => false end.

(** ** Tactics *)

Ltac list_norm := rewrite <- ?app_assoc; cbn [app].

(** ids of concatenations *)
Ltac in_ids := rewrite ?ids_app, ?in_app_iff; cbn [ids flat_map app In]; tauto.

Ltac ne_tac :=
  match goal with
  | |- drop_trivia ?r <> [] =>
    match goal with
    | H : ge r |- _ => exact (ge_drop_ne r H)
    | Hn : nf r, H : r <> [] |- _ => exact (nf_ne r Hn H)
    | Hn : nf r, H : l_at _ r = true |- _ => exact (nf_ne r Hn (l_at_ne _ r H))
    | Hn : nf r, H : l_at_set _ r = true |- _ => exact (nf_ne r Hn (l_at_set_ne _ r H))
    | Hn : nf r, H : l_at_end r = false |- _ => exact (nf_ne r Hn (l_at_end_ne r H))
    | Hn : nf ?t |- _ => rewrite Hn; discriminate
    end
  end.

Ltac look_intro :=
  let r' := fresh "r" in let E := fresh "Edrop" in let Hn := fresh "Hnf" in let HL := fresh "HL" in
  intros r' E Hn HL.

Ltac wlook f r :=
  match goal with
  | H : nf r |- _ => apply (wp_look_nf _ _ _ _ f r _ _ _ H)
  | _ => apply wp_look; look_intro
  end.

Ltac bump_intro :=
  let t := fresh "t" in let ts := fresh "r" in let tr := fresh "tr" in let us := fresh "us" in
  let E := fresh "Ebump" in let HL := fresh "HL" in
  intros t ts tr us E HL.

(** one structural step of symbolic execution *)
Ltac wstep :=
  match goal with
  | |- WpBase.wp _ _ _ _ _ (bind (bind _ _) _) _ _ _ _ => apply wp_bind
  | |- WpBase.wp _ _ _ _ _ (bind _ _) _ _ _ _ => apply wp_bind
  | |- WpBase.wp _ _ _ _ _ (Ret _) _ _ _ _ => apply wp_ret
  | |- WpBase.wp _ _ _ _ _ (look ?f) ?r _ _ _ => wlook f r
  | |- WpBase.wp _ _ _ _ _ (at_ _) _ _ _ _ => unfold at_
  | |- WpBase.wp _ _ _ _ _ (at_set _) _ _ _ _ => unfold at_set
  | |- WpBase.wp _ _ _ _ _ at_end _ _ _ _ => unfold at_end
  | |- WpBase.wp _ _ _ _ _ (at_following _) _ _ _ _ => unfold at_following
  | |- WpBase.wp _ _ _ _ _ (at_following_content _) _ _ _ _ => unfold at_following_content
  | |- WpBase.wp _ _ _ _ _ (at_twig_tag _) _ _ _ _ => unfold at_twig_tag
  | |- WpBase.wp _ _ _ _ _ at_twig_block_open _ _ _ _ => unfold at_twig_block_open
  | |- WpBase.wp _ _ _ _ _ at_twig_block_close _ _ _ _ => unfold at_twig_block_close
  | |- WpBase.wp _ _ _ _ _ at_twig_var_open _ _ _ _ => unfold at_twig_var_open
  | |- WpBase.wp _ _ _ _ _ at_twig_comment_open _ _ _ _ => unfold at_twig_comment_open
  | |- WpBase.wp _ _ _ _ _ at_twig_termination_tag _ _ _ _ => unfold at_twig_termination_tag
  | |- WpBase.wp _ _ _ _ _ peek_token _ _ _ _ => unfold peek_token
  | |- WpBase.wp _ _ _ _ _ (peek_nth_token _) _ _ _ _ => unfold peek_nth_token
  | |- WpBase.wp _ _ _ _ _ bump _ _ _ _ => apply wp_bump; [try ne_tac|bump_intro; intros ?]
  | |- WpBase.wp _ _ _ _ _ (bump_as _) _ _ _ _ => apply wp_bump_as; [try ne_tac|bump_intro]
  | |- WpBase.wp _ _ _ _ _ start _ _ _ _ => apply wp_start; let m := fresh "m" in intros m
  | |- WpBase.wp _ _ _ _ _ (complete _ _) _ _ ((_, _) :: _) _ =>
      apply wp_complete; let t := fresh "nd" in intros t
  | |- WpBase.wp _ _ _ _ _ (precede _) _ _ _ _ =>
      list_norm;
      first [ apply wp_precede
            | match goal with |- WpBase.wp _ _ _ _ _ _ _ ?i _ _ => change i with ([] ++ i); apply wp_precede end ];
      [try in_ids|
        let m := fresh "m" in let o := fresh "o" in let nd := fresh "nd" in
        let rc := fresh "recent" in intros m o nd rc ?]
  | |- WpBase.wp _ _ _ _ _ (debug_assert _) ?r _ _ _ => apply wp_dassert; [try assumption|try assumption|]
  | |- WpBase.wp _ _ _ _ _ (add_error _) _ _ _ _ => apply wp_add_error; [assumption|look_intro]
  | |- WpBase.wp _ _ _ _ _ (add_error_t _) _ _ _ _ => apply wp_add_error_t; [assumption|look_intro]
  | |- WpBase.wp _ _ _ _ _ (add_error_at _ _) _ _ _ _ => apply wp_add_error_at; [try assumption|]
  | |- WpBase.wp _ _ _ _ _ explicitly_consume_trivia _ _ _ _ => apply wp_trivia; let tr := fresh "tr" in intros tr
  | |- WpBase.wp _ _ _ _ _ (if ?b then _ else _) _ _ _ _ => let E := fresh "E" in destruct b eqn:E
  | |- WpBase.wp _ _ _ _ _ (when ?b _) _ _ _ _ => unfold when
  | |- WpBase.wp _ _ _ _ _ (let (_, _) := ?x in _) _ _ _ _ => destruct x
  end.

Section Api.
  Context (dbg : mode) (T : list token) (HT : T <> []).
  Notation wp := (WpBase.wp (bstep dbg T) (wf T) (allowed dbg T) False).
  Notation tok_ok := (tok_ok T).

  Definition keeps_end (set expected : list kind) (r r' : list token) : Prop :=
    closers_in set = true -> no_closer expected = true -> ge r -> ge r'.

  Lemma wp_recover_expect : forall expected set n r its st (Q : post (option token)),
    length r <= n ->
    (forall a r' tail, length r' <= length r -> keeps_end set expected r r' ->
       (forall t, a = Some t -> tok_ok t) ->
       (drop_trivia r = [] \/ l_at_set set (drop_trivia r) = true \/
        l_at_set GENERAL_RECOVERY_SET (drop_trivia r) = true \/ length r' < length (drop_trivia r)) ->
       Q a r' (its ++ tail) st) ->
    wp n (recover_expect expected set) r its st Q.
  Proof.
    intros expected set n r0 its st Q Hn HQ. unfold recover_expect.
    assert (Hge0 : forall r', drop_trivia r0 = r' -> keeps_end set expected r0 r').
    { intros r' <- _ _ H. now apply ge_drop. }
    repeat wstep.
    - rewrite <- (app_nil_r its). apply HQ; auto; [discriminate|]. left. apply l_at_end_nil in E. congruence.
    - rewrite <- (app_nil_r its). apply HQ; auto; [discriminate|]. right. left. congruence.
    - rewrite <- (app_nil_r its). apply HQ; auto; [discriminate|]. right. right. left. congruence.
    - eapply wp_iter with
        (J := fun m' _ r1 _ st' => nf r1 /\ r1 <> [] /\ length r1 <= m' /\ length r1 <= length r /\
                st' = (m, its) :: st /\ l_at_set set r1 = false /\ keeps_end set expected r0 r1)
        (QB := fun a r' its' st' => exists tail, its' = its ++ tail /\ st' = st /\ length r' < length r /\
                 keeps_end set expected r0 r' /\ (forall t, a = Some t -> tok_ok t)).
      + repeat split; auto; try lia. now apply l_at_end_ne in E.
      + intros m' _ r1 its1 st1 Hm (Hnf1 & Hne & Hf & HL1 & -> & Hs & Hk).
        assert (Hk' : forall t ts, drop_trivia r1 = t :: ts -> keeps_end set expected r0 ts).
        { intros t ts Et Hc He Hg. rewrite Hnf1 in Et. subst r1. apply (ge_cons t).
          - apply not_closer_kind. apply (closers_in_spec set); [exact Hc|exact Hs].
          - apply Hk; auto. }
        assert (Hk2 : forall t ts r', drop_trivia r1 = t :: ts -> drop_trivia ts = r' -> keeps_end set expected r0 r').
        { intros t ts r' Et <- Hc He Hg. apply ge_drop. eapply Hk'; eauto. }
        wstep. wstep. specialize (Hk' _ _ Ebump). wstep.
        destruct expected as [|e0 ex] eqn:Ee; [|rewrite <- Ee in *; clear Ee e0 ex].
        * repeat wstep;
            try (eexists; repeat split; eauto; [lia|discriminate]);
            (destruct m' as [|m']; [lia|]; repeat split; eauto; try lia; now apply l_at_end_ne).
        * repeat wstep;
            try (eexists; repeat split; eauto; [lia|discriminate]);
            try (destruct m' as [|m']; [lia|]; repeat split; eauto; try lia; now apply l_at_end_ne).
          eexists. rewrite <- app_assoc. repeat split; eauto; [lia| |intros ? [= <-]; assumption].
          intros Hc He Hg. apply (ge_cons t0).
          -- match goal with Hn : nf ?x, Eb : drop_trivia ?x = t0 :: _, Hx : l_at_set expected ?x = true |- _ =>
               rewrite Hn in Eb; rewrite Eb in Hx; exact (not_closer_kind _ (no_closer_spec expected _ He Hx)) end.
          -- match goal with Eb : drop_trivia ?x = t0 :: _ |- _ => rewrite <- Eb end.
             apply ge_drop. eapply Hk2; eauto.
      + intros b r' its' st' (tail & -> & -> & HL' & Hk & Ht). apply wp_ret. apply HQ; auto; try lia.
        right. right. right. rewrite Edrop. exact HL'.
  Qed.

  Lemma wp_recover : forall set n r its st (Q : post unit),
    length r <= n ->
    (forall r' tail, length r' <= length r -> keeps_end set [] r r' ->
       (drop_trivia r = [] \/ l_at_set set (drop_trivia r) = true \/
        l_at_set GENERAL_RECOVERY_SET (drop_trivia r) = true \/ length r' < length (drop_trivia r)) ->
       Q tt r' (its ++ tail) st) ->
    wp n (recover set) r its st Q.
  Proof.
    intros set n r its st Q Hn HQ. unfold recover. wstep. apply wp_recover_expect; [exact Hn|].
    intros a r' tail HL Hk _ Hp. wstep. auto.
  Qed.

  Lemma wp_display : forall k n r its st (Q : post text), has_display k = true ->
    (forall s, Q s r its st) -> wp n (display k) r its st Q.
  Proof.
    intros k n r its st Q Hk HQ. unfold display. unfold has_display in Hk.
    destruct (kind_display k); [|discriminate]. wstep. apply HQ.
  Qed.

  Lemma wp_display_or : forall ks n r its st (Q : post text), forallb has_display ks = true ->
    (forall s, Q s r its st) -> wp n (display_or ks) r its st Q.
  Proof.
    induction ks as [|k ks IH]; intros n r its st Q Hk HQ; cbn [display_or].
    - wstep. apply HQ.
    - cbn [forallb] in Hk. apply andb_true_iff in Hk as [Hk Hks].
      destruct ks as [|k' ks]; [now apply wp_display|].
      wstep. apply wp_display; [exact Hk|]. intros s1. wstep. apply IH; [exact Hks|]. intros s2. wstep. apply HQ.
  Qed.

  Lemma wp_expect : forall k set n r its st (Q : post (option token)),
    has_display k = true -> length r <= n ->
    (forall a r' tail, length r' <= length r -> keeps_end set [k] r r' ->
       (forall t, a = Some t -> tok_ok t) -> Q a r' (its ++ tail) st) ->
    wp n (expect k set) r its st Q.
  Proof.
    intros k set n r its st Q Hk Hn HQ. unfold expect. repeat wstep.
    - apply HQ; [lia| |intros ? [= <-]; assumption].
      intros Hc He Hg. rewrite Hnf in Ebump. apply ge_drop in Hg. rewrite Edrop, Ebump in Hg.
      apply (ge_cons t); [|exact Hg]. apply not_closer_kind. apply (no_closer_spec [k]); [exact He|].
      subst r0. cbn in E |- *. rewrite Ebump in E. cbn in E. now rewrite E.
    - apply wp_display; [exact Hk|]. intros d. wstep. wstep. apply wp_recover_expect; [lia|].
      intros a r' tail HL2 Hke Ht _. apply HQ; [lia| |exact Ht].
      intros Hc He Hg. apply Hke; auto. rewrite <- Edrop0. apply ge_drop. rewrite <- Edrop. now apply ge_drop.
  Qed.

  Lemma wp_expect_any : forall ks set n r its st (Q : post (option token)),
    forallb has_display ks = true -> length r <= n ->
    (forall a r' tail, length r' <= length r ->
       (forall t, a = Some t -> tok_ok t) -> Q a r' (its ++ tail) st) ->
    wp n (expect_any ks set) r its st Q.
  Proof.
    intros k set n r its st Q Hk Hn HQ. unfold expect_any. repeat wstep.
    - apply HQ; [lia|intros ? [= <-]; assumption].
    - apply wp_display_or; [exact Hk|]. intros d. wstep. wstep. apply wp_recover_expect; [lia|].
      intros a r' tail HL2 Hke Ht _. apply HQ; [lia|exact Ht].
  Qed.

  (** ** Loops *)

  Lemma wp_many : forall (X : Set) (early : X -> prog (bool * X)) (child : X -> prog X)
    (Inv : X -> list token -> list item -> Prop) c n x r its st (Q : post X),
    2 * length r + c <= n -> Inv x r its ->
    (forall x r its, Inv x r its -> Inv x (drop_trivia r) its) ->
    (forall x t ts r its tr us, Inv x r its -> drop_trivia r = t :: ts -> length ts < length r ->
       tk_kind t = TK_UNKNOWN -> Inv x ts (its ++ [ITok tr (tk_kind t) us])) ->
    (forall m x r its, m <= n -> 2 * length r + c <= m -> Inv x r its -> nf r -> r <> [] ->
       wp m (early x) r its st (fun p r1 its1 st1 =>
         if fst p then Q (snd p) r1 its1 st1 else
         wp m (child (snd p)) r1 its1 st1 (fun x2 r2 its2 st2 =>
           st2 = st /\ length r2 <= length r /\ Inv x2 r2 its2 /\
           (length r2 = length r -> Q x2 r2 its2 st2)))) ->
    (forall x its, Inv x [] its -> Q x [] its st) ->
    wp n (parse_many_st early child x) r its st Q.
  Proof.
    intros X early child Inv c n x r its st Q Hf Hi Hdrop Hunk Hround Hend. unfold parse_many_st.
    eapply wp_iter with (J := fun m x r its st' => 2 * length r + c <= m /\ Inv x r its /\ st' = st) (QB := Q).
    - auto.
    - intros m x1 r1 its1 st1 Hm (Hf1 & Hi1 & ->). wstep. apply wp_get_pos. intros HpT. wstep. wstep. wstep.
      assert (Hi2 : Inv x1 r0 its1) by (rewrite <- Edrop; now apply Hdrop). wstep.
      + wstep. wstep. wstep. destruct m as [|m].
        { lia. }
        split; [lia|]. split; [|reflexivity]. rewrite Hnf in Ebump.
        apply (Hunk x1 t r2 r0); auto; [now rewrite Hnf|]. rewrite Ebump in E. apply kind_eqb_eq. exact E.
      + wstep. wstep. wstep. wstep.
        * wstep. apply l_at_end_nil in E0. rewrite E0 in *. now apply Hend.
        * wstep. eapply wp_mono; [apply Hround; auto; [lia|now apply l_at_end_ne]|].
          intros [b x2] r2 its2 st2 HQ. cbn [fst snd] in HQ. wstep.
          { wstep. exact HQ. }
          wstep. eapply wp_mono; [exact HQ|]. intros x3 r3 its3 st3 (-> & HL3 & Hi3 & Hno).
          wstep. apply wp_get_pos. intros Hp3. wstep.
          { wstep. apply Nat.eqb_eq in E2. apply Hno. lia. }
          wstep. apply Nat.eqb_neq in E2. destruct m as [|m]; [lia|]. repeat split; auto. lia.
    - intros. now apply wp_ret.
  Qed.

  (** An early-exit test only looks. *)
  Definition looks (early : prog bool) : Prop :=
    forall m r its st (Q : post bool), nf r -> (forall b, Q b r its st) -> wp m early r its st Q.

  Lemma wp_many_n : forall early child c n r its st (Q : post unit),
    2 * length r + c <= n -> looks early ->
    (forall m r1 its1 (Q' : post unit), m <= n -> 2 * length r1 + c <= m -> nf r1 -> r1 <> [] ->
       length r1 <= length r ->
       (forall r2 tail, length r2 <= length r1 -> Q' tt r2 (its1 ++ tail) st) ->
       wp m child r1 its1 st Q') ->
    (forall r' tail, length r' <= length r -> Q tt r' (its ++ tail) st) ->
    wp n (parse_many early child) r its st Q.
  Proof.
    intros early child c n r its st Q Hf Hl Hc HQ. unfold parse_many.
    apply wp_many with (c := c) (Inv := fun _ r1 its1 => length r1 <= length r /\ exists tail, its1 = its ++ tail).
    - exact Hf.
    - split; [lia|]. exists []. now rewrite app_nil_r.
    - intros _ r1 its1 [H1 H2]. split; [|exact H2]. pose proof (drop_length r1). lia.
    - intros _ t ts r1 its1 tr us [H1 (tl & ->)] _ H3 _. split; [lia|]. eexists. rewrite <- app_assoc. reflexivity.
    - intros m [] r1 its1 Hm Hf1 (H1 & tl & ->) Hn Hne. wstep. apply Hl; [exact Hn|]. intros b. wstep.
      cbn [fst snd]. destruct b; [now apply HQ|].
      apply Hc; auto. intros r2 tail H2. split; [reflexivity|]. split; [exact H2|].
      rewrite <- app_assoc. split; [split; [lia|eauto]|]. intros _. apply HQ. lia.
    - intros [] its1 (_ & tl & ->). apply HQ. cbn. lia.
  Qed.

  Lemma looks_look : forall f, looks (look f).
  Proof. intros f m r its st Q Hn HQ. wstep. apply HQ. Qed.
  Lemma looks_ret : forall b, looks (Ret b).
  Proof. intros f m r its st Q Hn HQ. wstep. apply HQ. Qed.
  Lemma looks_or : forall p q, looks p -> looks q -> looks (a <- p ;; if a then Ret true else q).
  Proof. intros p q Hp Hq m r its st Q Hn HQ. wstep. apply Hp; [exact Hn|]. intros []; [wstep; apply HQ|now apply Hq]. Qed.

  (** Joining branches: what follows only learns that nothing but items was added. *)
  Lemma wp_join : forall (B : Set) (p : prog unit) (g : unit -> prog B) n r its st (Q : post B),
    (forall Q' : post unit, (forall r' tail, length r' <= length r -> Q' tt r' (its ++ tail) st) ->
       wp n p r its st Q') ->
    (forall r' tail, length r' <= length r -> wp n (g tt) r' (its ++ tail) st Q) ->
    wp n (bind p g) r its st Q.
  Proof. intros B p g n r its st Q Hp Hg. wstep. apply Hp. exact Hg. Qed.

  (** * Helpers of the grammar *)

  Lemma wp_name : forall n r its st (Q : post (option nat)),
    (forall a r' tail, length r' <= length r -> (ge r -> ge r') ->
       match a with
       | Some m => In m (ids tail) /\ length r' < length r
       | None => r' = drop_trivia r /\ tail = []
       end -> Q a r' (its ++ tail) st) ->
    wp n parse_twig_name r its st Q.
  Proof.
    intros n r its st Q HQ. unfold parse_twig_name. do 6 wstep.
    assert (HN : wp n (Ret None) r0 its st Q).
    { wstep. rewrite <- (app_nil_r its). apply HQ; [lia| |auto]. intros Hg. rewrite <- Edrop. now apply ge_drop. }
    destruct r0 as [|t ts]; cbn [hd_error]; [exact HN|].
    wstep; [exact HN|]. repeat wstep.
    - apply HQ; [lia| |split; [now left|lia]].
      intros Hg. rewrite Hnf in Ebump. injection Ebump as <- <-. apply ge_drop in Hg. rewrite Edrop in Hg.
      apply (ge_cons t); [|exact Hg]. apply andb_false_iff in E. destruct E as [E|E]; apply negb_false_iff in E.
      + apply not_closer_kind. apply (no_closer_spec [TK_SAME_AS; TK_DIVISIBLE_BY]); [reflexivity|exact E].
      + now apply not_closer_name.
  Qed.

  Lemma wp_opt_bump : forall k n r its st (Q : post unit),
    (forall r' tail, length r' <= length r -> Q tt r' (its ++ tail) st) ->
    wp n (opt_bump k) r its st Q.
  Proof.
    intros k n r its st Q HQ. unfold opt_bump. repeat wstep.
    - apply HQ. lia.
    - rewrite <- (app_nil_r its). apply HQ. lia.
  Qed.
End Api.
