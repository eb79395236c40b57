(** Whole parses of token lists that differ in the words they use only. *)
From Coq Require Import NArith String Bool Arith Lia List.
Import ListNotations.
From Verif Require Import Text Kind Regex Lexer LexerProofs ParserApi GrammarExpr GrammarTags GrammarHtml Machine
  TreeMachine Simulation TreeSpec WpBase Total TotalApi TotalExpr TotalTags TotalHtml PropParser Rename RenameSim RenameGrammar.
Local Notation length := List.length (only parsing).
Local Open Scope list_scope.
Local Open Scope prog_scope.

(** What a parse ends with: all tokens consumed, no open node. *)
Lemma root_end : forall dbg T n, 2 * length T + 1 <= n -> T <> [] ->
  match run (tstep false dbg T) n root_body (t_root T) with
  | OK (_, s) => drop_trivia (t_rest s) = [] /\ t_stack s = [(0, [])] /\ drop_trivia (t_snk s) = drop_trivia (t_rest s)
  | Panicked q => q <> PStuck
  | NoFuel => False end.
Proof.
  intros dbg T n Hn HT. pose proof (root_wp dbg T HT (t_root T)) as W.
  assert (Hw : wf T (t_root T)).
  { constructor; cbn [t_root t_rest t_snk t_items t_stack t_errs]; auto.
    - exists []. reflexivity.
    - exists []. split; [reflexivity|]. cbn. constructor.
    - exists Apart. split; [reflexivity|]. congruence. }
  specialize (W Hw eq_refl eq_refl eq_refl).
  assert (NF : run (tstep false dbg T) (2 * length T + 1) root_body (t_root T) <> NoFuel).
  { intros E. rewrite E in W. exact W. }
  rewrite (run_fuel_mono _ _ _ _ _ _ NF n) by exact Hn.
  destruct (run (tstep false dbg T) (2 * length T + 1) _ _) as [[u s]|q|]; cbn [holds] in W; [|idtac|exact W].
  - destruct W as (W0 & W1 & W2). repeat split; auto. apply W0.
  - destruct W as [[_ E]|[_ [E|[E|E]]]]; subst q; discriminate.
Qed.

Section Root.
  Context (dbg : bool) (T T' : list token) (HT : T <> []) (REN : renaming T T').

  Lemma sim_root_body : forall n, sim dbg T T' n root_body root_body eq.
  Proof.
    intros n. unfold root_body, parse_many. apply sim_many; [exact REN| |].
    - intros m x Hm. apply sim_bind with (R1 := eq); [now apply sim_ret|]. intros ? ? <-. now apply sim_ret.
    - intros m x Hm. apply sim_bind with (R1 := eq).
      + apply sim_call; [intros; now apply ren_call|]. intros. now apply sim_ret.
      + intros a ? <-. apply sim_bind with (R1 := eq).
        * destruct (is_none a); [|now apply sim_ret]. apply sim_bind with (R1 := eq); [apply (sim_look dbg T T' REN), lookr_at_end|].
          intros ? ? <-. now apply sim_ret.
        * intros e ? <-. destruct e; [|now apply sim_ret]. cbn [when].
          apply sim_bind with (R1 := eq); [now apply sim_add_error|]. intros ? ? <-. now apply y_recover.
  Qed.

  Lemma root_related : srel T T' (t_root T) (t_root T').
  Proof.
    pose proof (pairs T T' REN) as P. constructor; cbn [t_root t_rest t_snk t_items t_stack t_nev t_errs]; auto.
    constructor; [|constructor]. split; [reflexivity|constructor].
  Qed.

  Theorem parse_renamed : renamed_parse T T' (parse_tokens dbg (parse_fuel T) T) (parse_tokens dbg (parse_fuel T') T').
  Proof.
    assert (L : length T = length T') by (eapply Forall2_len, pairs; exact REN).
    assert (FU : parse_fuel T' = parse_fuel T) by (unfold parse_fuel; now rewrite L).
    rewrite FU. set (n := parse_fuel T) in *.
    pose proof (sim_root_body n _ _ root_related) as B.
    pose proof (root_end dbg T n ltac:(subst n; unfold parse_fuel; lia) HT) as W.
    pose proof (parse_tokens_sim dbg n T) as P. pose proof (parse_tokens_sim dbg n T') as P'.
    destruct (run (tstep false dbg T) n root_body (t_root T)) as [[u s]|q|];
      destruct (run (tstep false dbg T') n root_body (t_root T')) as [[u' s']|q'|]; cbn [both] in B; try contradiction.
    - destruct B as [_ S]. destruct W as (W1 & W2 & W3). rewrite W1 in W3.
      assert (W2' : t_stack s' = [(0, [])]).
      { pose proof (sr_stack _ _ _ _ S) as Fs. rewrite W2 in Fs. inversion Fs as [|x y lx ly [Hf1 Hf2] Hl]; subst.
        inversion Hl; subst. destruct y as [y1 y2]. cbn in *. subst y1. inversion Hf2. reflexivity. }
      assert (D' : drop_trivia (t_snk s') = []).
      { pose proof (drop_pairs T T' REN _ _ (sr_snk _ _ _ _ S)) as D. rewrite W3 in D. now inversion D. }
      rewrite (P W2 W3), (P' W2' D'). cbn [renamed_parse]. split; [|apply S]. constructor. apply Forall2_app.
      + apply irels_trees; [exact REN|apply S].
      + apply leaves_renamed; [exact REN|apply S].
    - subst q'. assert (E : forall T0, match q with PStuck => True | q0 => parse_tokens dbg n T0 = Panicked q0 end -> parse_tokens dbg n T0 = Panicked q).
      { intros T0 H. destruct q; auto. now contradiction W. }
      rewrite (E _ P), (E _ P'). reflexivity.
  Qed.
End Root.
