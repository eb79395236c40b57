(** Whole parses of token lists that differ in white space only. *)
From Coq Require Import NArith String Bool Arith Lia List.
Import ListNotations.
From Verif Require Import Text Kind Regex Lexer LexerProofs ParserApi GrammarExpr GrammarTags GrammarHtml Machine
  TreeMachine Simulation TreeSpec WpBase Total TotalApi TotalExpr TotalTags TotalHtml PropParser Layout LayoutSim LayoutGrammar.
Local Notation length := List.length (only parsing).
Local Open Scope list_scope.
Local Open Scope prog_scope.

Definition root_child : prog unit :=
  r <- Call (CChild PFAny) (fun r => Ret r) ;;
  e <- (if is_none r then b <- at_end ;; Ret (negb b) else Ret false) ;;
  when e (add_error "html, text or twig element"%string ;; recover []).

Definition root_round (u : unit) : prog (unit + unit) :=
  parser_pos <- get_pos ;;
  If at_ TK_UNKNOWN Then bump ;; Ret (inl u)
  Else (
    e <- at_end ;;
    if e then Ret (inr u) else
    ' (b, x1) <- (b <- Ret false ;; Ret (b, u)) ;;
    if b then Ret (inr x1) else
    x2 <- root_child ;;
    pos <- get_pos ;;
    if Nat.eqb pos parser_pos then Ret (inr x2) else Ret (inl x2)).

Lemma root_rounds : root_body = Iter root_round tt (fun x => Ret x).
Proof. reflexivity. Qed.

(** Every round of the root consumes something. *)
Lemma root_child_wp : forall dbg T N m r its, T <> [] -> m <= N -> 2 * length r + 1 <= m -> nf r -> r <> [] ->
  WpBase.wp (tstep false dbg T) (wf T) (allowed_in dbg T) False m root_child r its [(0, [])]
    (fun _ r2 _ _ => length r2 < length r).
Proof.
  intros dbg0 T N m r its HT Hm Hf Hn Hne. apply wp_build. unfold root_child. set (dbg := build dbg0).
  assert (HC : forall m c, m < N -> callspec dbg T m c) by (intros; now apply callspec_holds).
  wstep.
  apply (wp_callc dbg T N HC); [lia|lia|]. intros a r1 tl1 HL1 HP. cbn [cpost] in HP.
  destruct a as [c|]; cbn [is_none].
  - wstep. wstep. cbn [when]. wstep. lia.
  - rewrite Hn in HP. wstep. wstep. wstep. wstep. wstep. unfold when. wstep.
    + apply negb_true_iff in E. wstep. apply wp_add_error; [exact HT|]. intros r2 E2 Hn2 HL2.
      rewrite Hnf in E2. subst r2. apply wp_recover; [lia|]. intros r3 tl3 HL3 _ Hpr. rewrite Hnf in Hpr.
      destruct HP as [HP|[HP1 HP2]]; [lia|]. subst r1. rewrite Hn in Edrop. subst r0.
      destruct HP2 as [->|HP2]; [discriminate|].
      destruct Hpr as [->|[Hpr|[Hpr|Hpr]]]; [discriminate| | |lia].
      * destruct r; discriminate.
      * destruct r as [|x l]; [discriminate|]. cbn [l_at l_at_set] in *. apply kind_eqb_eq in HP2. rewrite HP2 in Hpr.
        discriminate.
    + apply negb_false_iff in E. apply l_at_end_nil in E. wstep. subst r0. rewrite E. destruct r; [contradiction|]. cbn. lia.
Qed.

Section Root.
  Context (dbg : bool) (g g' r r' : list token).
  Context (G : Forall blank g) (G' : Forall blank g') (F : nf r) (F' : nf r') (HR : same_but_blanks r r').
  Let T := g ++ r.
  Let T' := g' ++ r'.
  Context (BT : forall t, In t T -> is_trivia (tk_kind t) = true -> blank t)
          (BT' : forall t, In t T' -> is_trivia (tk_kind t) = true -> blank t).
  Notation step := (tstep false dbg T).
  Notation step' := (tstep false dbg T').
  Notation both := (both T T').
  Notation srel := (srel T T').

  Lemma drop_T : drop_trivia T = r.
  Proof. unfold T. rewrite drop_blanks by exact G. exact F. Qed.
  Lemma drop_T' : drop_trivia T' = r'.
  Proof. unfold T'. rewrite drop_blanks by exact G'. exact F'. Qed.

  Lemma root_start : srel (mkT r T [] [(0, [])] 1 []) (mkT r' T' [] [(0, [])] 1 []).
  Proof.
    constructor; cbn [t_rest t_snk t_items t_stack t_nev t_errs]; auto.
    - split; [exists g; reflexivity|now left].
    - split; [exists g'; reflexivity|now left].
    - now rewrite drop_T.
    - now rewrite drop_T'.
    - now exists [].
    - now exists [].
    - constructor; [|constructor]. split; [reflexivity|constructor].
  Qed.

  Lemma r_ends : r = [] <-> r' = [].
  Proof.
    destruct (sb_nf _ _ HR F F') as [[-> ->]|(t & t' & q & q' & -> & -> & _)]; [tauto|]. split; discriminate.
  Qed.

  Definition root_rest (n : nat) (s : tstate) (b : bool) (T0 : list token) :=
    run (tstep false dbg T0) n
      (if b then bump ;; Ret (inl tt)
       else (e <- at_end ;;
        if e then Ret (inr tt) else
        ' (b, x1) <- (b <- Ret false ;; Ret (b, tt)) ;;
        if b then Ret (inr x1) else
        x2 <- root_child ;;
        pos <- get_pos ;;
        if Nat.eqb pos 0 then Ret (inr x2) else Ret (inl x2))) s.

  Lemma round_start : forall n T0, run (tstep false dbg T0) n (root_round tt) (t_root T0) =
    root_rest n (mkT (drop_trivia T0) T0 [] [(0, [])] 1 []) (l_at TK_UNKNOWN (drop_trivia T0)) T0.
  Proof.
    intros n T0. unfold root_round, get_pos, prim. rewrite run_bind, run_Op. cbn [tstep rbind fst snd]. rewrite run_Ret. cbn [rbind fst snd].
    cbn [t_root t_rest]. rewrite Nat.sub_diag. rewrite run_bind. unfold at_, look. rewrite run_Op. cbn [tstep rbind fst snd]. rewrite run_Ret. cbn [rbind fst snd].
    reflexivity.
  Qed.

  Lemma wf_start : forall T0, wf T0 (mkT (drop_trivia T0) T0 [] [(0, [])] 1 []).
  Proof.
    intros T0. constructor; cbn [t_root t_rest t_snk t_items t_stack t_errs]; auto.
    - now rewrite drop_idem.
    - destruct (drop_suffix T0) as (p & E). now exists p.
    - exists []. split; [reflexivity|]. cbn. constructor.
    - exists Apart. split; [reflexivity|]. congruence.
  Qed.

  Lemma wf_progress : forall n T0, T0 <> [] -> drop_trivia T0 <> [] -> 2 * length T0 + 1 <= n ->
    match run (tstep false dbg T0) n root_child (mkT (drop_trivia T0) T0 [] [(0, [])] 1 []) with
    | OK (_, s) => length (t_rest s) < length T0
    | _ => True
    end.
  Proof.
    intros n T0 H0 H1 Hn. pose proof (drop_length T0) as HL.
    pose proof (root_child_wp dbg T0 n n (drop_trivia T0) [] H0 (le_n _) ltac:(lia) (nf_drop _) H1 _ (wf_start T0) eq_refl eq_refl eq_refl) as W.
    destruct (run _ _ _ _) as [[u s]|q|]; auto. cbn [holds] in W. destruct W as [_ W]. lia.
  Qed.

  Lemma sim_root_child : forall n, T <> [] -> T' <> [] -> sim dbg T T' n root_child root_child eq.
  Proof.
    intros n HT HT'. unfold root_child. apply sim_bind with (R1 := eq).
    - apply sim_call; [intros; now apply lay_call|]. intros. now apply sim_ret.
    - intros a ? <-. apply sim_bind with (R1 := eq).
      + destruct (is_none a); [|now apply sim_ret]. apply sim_bind with (R1 := eq); [apply sim_look, lookr_at_end|].
        intros ? ? <-. now apply sim_ret.
      + intros e ? <-. destruct e; [|now apply sim_ret]. cbn [when].
        apply sim_bind with (R1 := eq); [now apply sim_add_error|]. intros ? ? <-. now apply y_recover.
  Qed.

  Lemma round_both : forall n, 2 * length T + 1 <= n -> 2 * length T' + 1 <= n ->
    both (sumR eq eq) (run step n (root_round tt) (t_root T)) (run step' n (root_round tt) (t_root T')).
  Proof.
    intros n Hn Hn'. rewrite !round_start. pose proof root_start as HS. pose proof drop_T as D. pose proof drop_T' as D'.
    pose proof (lookr_at TK_UNKNOWN r r' HR F F') as EU. pose proof r_ends as RE.
    pose proof (wf_progress n T) as P. pose proof (wf_progress n T') as P'.
    rewrite D in *. rewrite D' in *. rewrite <- EU. clear EU. unfold root_rest.
    destruct (l_at TK_UNKNOWN r).
    { assert (SB : sim dbg T T' n (bump ;; Ret (inl tt)) (bump ;; Ret (inl tt)) (@sumR unit unit eq eq)).
      { apply sim_bind with (R1 := same_tok); [now apply sim_bump_as|]. intros. now apply sim_ret. }
      apply SB, HS. }
    rewrite !run_bind. unfold at_end, look. rewrite !run_Op. cbn [tstep rbind fst snd]. rewrite !run_Ret.
    cbn [rbind fst snd t_rest t_snk t_items t_stack t_nev t_errs].
    rewrite F, F'.
    pose proof (lookr_at_end r r' HR F F') as EE. rewrite <- EE.
    destruct (l_at_end r) eqn:Er.
    { rewrite !run_Ret. cbn [LayoutSim.both]. split; [reflexivity|exact HS]. }
    assert (Nr : r <> []) by (intros X; rewrite X in Er; discriminate).
    assert (Nr' : r' <> []) by (intros X; rewrite X in EE; discriminate).
    rewrite !run_bind, !run_Ret. cbn [rbind fst snd]. rewrite !run_Ret. cbn [rbind fst snd].
    rewrite !run_bind.
    assert (HT : T <> []) by (intros X; apply app_eq_nil in X; tauto).
    assert (HT' : T' <> []) by (intros X; apply app_eq_nil in X; tauto).
    specialize (P HT Nr Hn). specialize (P' HT' Nr' Hn').
    pose proof (sim_root_child n HT HT' _ _ HS) as C.
    destruct (run step n root_child _) as [[u s]|p|]; destruct (run step' n root_child _) as [[u' s']|p'|];
      cbn [LayoutSim.both] in C; try contradiction; cbn [rbind]; [|exact C|exact I].
    destruct C as [_ C]. cbn [fst snd]. rewrite !run_bind. unfold get_pos, prim. rewrite !run_Op. cbn [tstep rbind fst snd].
    rewrite !run_Ret. cbn [rbind fst snd].
    assert (Q : Nat.eqb (length T - length (t_rest s)) 0 = false) by (apply Nat.eqb_neq; lia).
    assert (Q' : Nat.eqb (length T' - length (t_rest s')) 0 = false) by (apply Nat.eqb_neq; lia).
    rewrite Q, Q', !run_Ret. cbn [LayoutSim.both]. split; [|exact C]. destruct u, u'. reflexivity.
  Qed.

  Lemma sim_root_body : forall n, T <> [] -> T' <> [] -> sim dbg T T' n root_body root_body eq.
  Proof.
    intros n HT HT'. unfold root_body, parse_many. apply sim_many; [exact BT|exact BT'| |].
    - intros m x Hm. apply sim_bind with (R1 := eq); [now apply sim_ret|]. intros ? ? <-. now apply sim_ret.
    - intros m x Hm. now apply sim_root_child.
  Qed.

  Lemma empty_run : forall n T0, drop_trivia T0 = [] ->
    run (tstep false dbg T0) n root_body (t_root T0) = OK (tt, mkT [] T0 [] [(0, [])] 1 []).
  Proof.
    intros n T0 E. rewrite root_rounds, run_Iter, round_start, E. unfold root_rest.
    replace (l_at TK_UNKNOWN []) with false by reflexivity.
    rewrite run_bind. unfold at_end, look. rewrite run_Op. cbn [tstep rbind fst snd t_rest drop_trivia l_at_end].
    rewrite run_Ret. cbn [rbind fst snd t_snk t_items t_stack t_nev t_errs]. rewrite run_Ret. cbn [rbind fst snd]. now rewrite run_Ret.
  Qed.

  Lemma root_both : forall n, 2 * length T + 1 <= n -> 2 * length T' + 1 <= n ->
    both eq (run step n root_body (t_root T)) (run step' n root_body (t_root T')).
  Proof.
    intros n Hn Hn'. destruct (l_at_end r) eqn:Er.
    { apply l_at_end_nil in Er. assert (Er' : r' = []) by (apply r_ends; exact Er).
      pose proof root_start as HS. rewrite !empty_run by (rewrite ?drop_T, ?drop_T'; assumption).
      rewrite Er, Er' in HS. cbn [LayoutSim.both]. split; [reflexivity|]. exact HS. }
    assert (Nr : r <> []) by (intros X; rewrite X in Er; discriminate).
    assert (Nr' : r' <> []) by (intros X; apply r_ends in X; contradiction).
    assert (HT : T <> []) by (intros X; apply app_eq_nil in X; tauto).
    assert (HT' : T' <> []) by (intros X; apply app_eq_nil in X; tauto).
    pose proof (round_both n Hn Hn') as B. pose proof sim_root_body as SB. rewrite root_rounds in *. rewrite !run_Iter.
    eapply both_bind with (R1 := eq).
    - eapply both_bind; [exact B|]. intros [x|b] [x'|b'] s s' Ha HS; cbn [sumR] in Ha; try contradiction; cbn [fst snd].
      + destruct n as [|n]; [lia|]. subst x'. destruct x. apply SB; auto.
      + cbn [LayoutSim.both]. auto.
    - intros a a' s s' -> HS. cbn [fst snd]. rewrite !run_Ret. cbn [LayoutSim.both]. auto.
  Qed.
End Root.

Lemma fuel_more : forall dbg T n, parse_fuel T <= n -> parse_tokens dbg n T = parse_tokens dbg (parse_fuel T) T.
Proof.
  intros dbg T n Hn.
  assert (HN : parse_tokens dbg (parse_fuel T) T <> NoFuel).
  { destruct T as [|t l]; [destruct dbg; vm_compute; discriminate|].
    destruct (parse_outcome dbg (t :: l) ltac:(discriminate)) as [(cs & errs & E & _)|(q & E & _)]; congruence. }
  unfold parse_tokens, parser_parse in *. rewrite (run_fuel_mono _ _ (parse_fuel T)); [reflexivity| |exact Hn].
  intros E. rewrite E in HN. now apply HN.
Qed.

Lemma all_blank : forall T l, (forall t, In t T -> is_trivia (tk_kind t) = true -> blank t) -> (exists p, T = p ++ l) ->
  drop_trivia l = [] -> Forall blank l.
Proof.
  intros T l B (p & ->) D. apply Forall_forall. intros t Ht. apply B; [apply in_or_app; now right|].
  clear B p. induction l as [|x l IH]; [destruct Ht|]. cbn [drop_trivia] in D.
  destruct (is_trivia (tk_kind x)) eqn:E; [|discriminate]. destruct Ht as [<-|Ht]; auto.
Qed.

Theorem parse_layout : forall dbg g g' r r',
  Forall blank g -> Forall blank g' -> nf r -> nf r' -> same_but_blanks r r' ->
  (forall t, In t (g ++ r) -> is_trivia (tk_kind t) = true -> blank t) ->
  (forall t, In t (g' ++ r') -> is_trivia (tk_kind t) = true -> blank t) ->
  same_parse (parse_tokens dbg (parse_fuel (g ++ r)) (g ++ r)) (parse_tokens dbg (parse_fuel (g' ++ r')) (g' ++ r')).
Proof.
  intros dbg g g' r r' G G' F F' HR BT BT'. set (T := g ++ r) in *. set (T' := g' ++ r') in *.
  set (n := parse_fuel T + parse_fuel T').
  rewrite <- (fuel_more dbg T n), <- (fuel_more dbg T' n) by (subst n; lia).
  pose proof (root_both dbg g g' r r' G G' F F' HR BT BT' n ltac:(subst n; unfold parse_fuel, T; lia) ltac:(subst n; unfold parse_fuel, T'; lia)) as B.
  fold T in B. fold T' in B.
  pose proof (parse_tokens_sim dbg n T) as P. pose proof (parse_tokens_sim dbg n T') as P'.
  assert (W : match run (tstep false dbg T) n root_body (t_root T) with
              | OK (_, s) => drop_trivia (t_rest s) = [] /\ t_stack s = [(0, [])]
              | Panicked q => q <> PStuck
              | NoFuel => False end).
  { destruct T as [|t l] eqn:ET.
    - rewrite empty_run by reflexivity. split; reflexivity.
    - pose proof (root_wp dbg (t :: l) ltac:(discriminate) (t_root (t :: l))) as W.
      assert (Hw : wf (t :: l) (t_root (t :: l))).
      { constructor; cbn [t_root t_rest t_snk t_items t_stack t_errs]; auto.
        - exists []. reflexivity.
        - exists []. split; [reflexivity|]. cbn. constructor.
        - exists Apart. split; [reflexivity|]. congruence. }
      specialize (W Hw eq_refl eq_refl eq_refl).
      assert (NF : run (tstep false dbg (t :: l)) (2 * length (t :: l) + 1) root_body (t_root (t :: l)) <> NoFuel).
      { intros E. rewrite E in W. exact W. }
      rewrite (run_fuel_mono _ _ _ _ _ _ NF n) by (subst n; unfold parse_fuel; lia).
      destruct (run (tstep false dbg (t :: l)) (2 * length (t :: l) + 1) _ _) as [[u s]|q|]; cbn [holds] in W; [destruct W as (_ & W1 & W2); auto| |exact W].
      destruct W as [[_ E]|[_ [E|[E|E]]]]; subst q; discriminate. }
  destruct (run (tstep false dbg T) n root_body (t_root T)) as [[u s]|q|];
    destruct (run (tstep false dbg T') n root_body (t_root T')) as [[u' s']|q'|]; cbn [LayoutSim.both] in B; try contradiction.
  - destruct B as [_ S]. destruct W as [W1 W2].
    assert (D : drop_trivia (t_snk s) = []) by (rewrite (sr_sync _ _ _ _ S); exact W1).
    assert (D' : drop_trivia (t_snk s') = []).
    { rewrite (sr_sync' _ _ _ _ S). pose proof (sb_drop _ _ (sr_rest _ _ _ _ S)) as Sd. rewrite W1 in Sd.
      destruct (sb_nf _ _ Sd (eq_refl : nf []) (nf_drop _)) as [[_ E]|(t & t' & q & q' & E & _)]; [exact E|discriminate E]. }
    assert (W2' : t_stack s' = [(0, [])]).
    { pose proof (sr_stack _ _ _ _ S) as Fs. rewrite W2 in Fs. inversion Fs as [|x y lx ly [Hf1 Hf2] Hl]; subst.
      inversion Hl; subst. destruct y as [y1 y2]. cbn in *. subst y1. inversion Hf2. reflexivity. }
    rewrite (P W2 D), (P' W2' D'). cbn [same_parse bare]. split; [|apply S].
    rewrite !flat_map_app. rewrite (irels_bare _ _ (sr_items _ _ _ _ S)).
    rewrite !bare_blanks; [reflexivity| |].
    + apply (all_blank T'); [exact BT'|apply S|exact D'].
    + apply (all_blank T); [exact BT|apply S|exact D].
  - subst q'. assert (E : forall T0, match q with PStuck => True | q0 => parse_tokens dbg n T0 = Panicked q0 end -> parse_tokens dbg n T0 = Panicked q).
    { intros T0 H. destruct q; auto. now contradiction W. }
    rewrite (E _ P), (E _ P'). reflexivity.
Qed.
