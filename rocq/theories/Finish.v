(** How many rounds of layout fixes it takes.  Machinery for C72. *)
From Coq Require Import NArith String Bool Arith Lia Permutation List.
Import ListNotations.
From Verif Require Import Text Kind Regex Lexer LexerProofs ParserApi Machine TreeSpec Layout.
From Verif Require PropShape PropLexer PropParser PropLines LexLayout LayoutSim PropIndent PropSkel.
From Verif Require Import Relaid Snug.
From Verif Require Import Red Typed Rule Rules Check Process RedFacts WalkSpec PropProcess PropRun PropTree PropOff Found PropFound PropFound6 Tidy Nested Rounds Settled.
Local Notation length := List.length (only parsing).
Local Open Scope list_scope.

Section Finish.
  Context (dbg : bool) (sort : list (text * suggestion) -> out (list (text * suggestion))) (cf : config) (rules : list rule).
  Hypothesis So : sorts sort.
  Hypothesis St : stable sort.
  Hypothesis NC : forall l, sort l <> Crashed.
  Hypothesis I : incl rules PropIndent.layout_rules.
  Hypothesis N : NoDup (map rl_name rules).
  Hypothesis Cnt : 0 < cf_indentation_count cf.

  Definition state (src : text) (t : tree) (rs : list result) : Prop :=
    parse_src dbg src = OK (t, []) /\ directives_elsewhere t /\ no_interpolation src /\ run_rules cf rules t = Done rs.
  Definition no_indentation_sugs (rs : list result) : Prop := forall p, In p (rule_suggestions rs) -> fst p <> indentation_name.

  Lemma one_round src t rs n i dirty : state src t rs -> rule_suggestions rs <> [] ->
    exists new t' rs', state new t' rs' /\ same_lines src new /\
      fix_loop dbg sort cf (S n) i (mkFile src t [] rules) rs dirty = fix_loop dbg sort cf n (S i) (mkFile new t' [] rules) rs' true /\
      no_indentation_sugs rs' /\ (no_indentation_sugs rs -> rule_suggestions rs' = []) /\
      exists chosen, edited 0 src chosen new /\ Forall (PropIndent.indent_edit src) chosen /\ (forall s, In s chosen -> exists p, In p (rule_suggestions rs) /\ snd p = s).
  Proof.
    intros (P & ND & NI & R) Ne. pose proof (parsed_file _ _ _ P) as Pf. pose proof (elsewhere_names _ ND) as D. cbn [fix_loop].
    destruct (rule_suggestions rs) as [|x l] eqn:E; [contradiction|]. clear Ne. rewrite <- E.
    destruct (sort (rule_suggestions rs)) as [sorted|] eqn:HS; [|destruct (NC _ HS)].
    destruct (select_suggestions sorted) as [e|chosen] eqn:Sel.
    { exfalso. unfold select_suggestions in Sel. destruct (overlapping_rules sorted) as [name|] eqn:O; [|discriminate].
      exact (PropIndent.no_collision dbg src t cf Pf D _ _ _ _ _ So I N R HS O). }
    cbn [fc_source fc_rules]. destruct (PropIndent.round dbg src t cf Pf D _ _ _ _ _ So I R HS Sel) as (new & An & SL). rewrite An.
    destruct (PropIndent.same_lines_parsed _ _ _ _ Pf SL) as (t' & Pf' & B). rewrite Pf'.
    assert (P' : parse_src dbg new = OK (t', [])).
    { unfold parse_file in Pf'. destruct (parse_src dbg new) as [[? ?]| |]; try discriminate. now injection Pf' as -> ->. }
    destruct (PropSkel.C14_rules_never_crash cf _ _ _ _ rules Pf') as (rs' & R').
    { intros r Hr. destruct (I r Hr) as [<-|[<-|[]]]; cbn [In RULE_DEFINITIONS]; tauto. }
    rewrite R'. exists new, t', rs'.
    pose proof (bare_elsewhere _ _ B ND) as ND'. pose proof (same_lines_interpolation _ _ SL NI) as NI'.
    assert (S' : state new t' rs') by (unfold state; auto). split; [exact S'|]. split; [exact SL|]. split; [reflexivity|].
    destruct (chosen_apart dbg src t cf rules rs P ND I N R sort sorted chosen So HS Sel) as [IO BS].
    assert (Ind : Forall (PropIndent.indent_edit src) chosen).
    { apply Forall_forall. intros s Hs. destruct (chosen_from rs sort sorted chosen So HS Sel s Hs) as (p & Hp & <-).
      pose proof (PropIndent.run_fine dbg src t cf Pf D rules rs I R) as F. rewrite Forall_forall in F. apply (F p Hp). }
    assert (Ed : edited 0 src chosen new).
    { destruct (C20_edits_are_applied_exactly src chosen IO) as (new2 & A2 & Ed); [|congruence].
      eapply Forall_impl; [|exact Ind]. intros s. apply PropIndent.indent_edit_fits. }
    assert (A : no_indentation_sugs rs').
    { unfold no_indentation_sugs. apply (no_indentation_left dbg src new t t' cf rules rs rs' P ND NI P' ND' NI' SL B I N R R' chosen Ed Ind BS); [|exact Cnt|].
      - intros s. apply (chosen_from rs sort sorted chosen So HS Sel).
      - apply (indentation_chosen dbg src t cf rules rs P ND I N R sort sorted chosen So St HS Sel). }
    split; [exact A|]. split; [|exists chosen; split; [exact Ed|]; split; [exact Ind|]; intros s; apply (chosen_from rs sort sorted chosen So HS Sel)]. intros None. destruct (rule_suggestions rs') as [|p l'] eqn:E'; [reflexivity|]. exfalso.
    assert (Hp : In p (rule_suggestions rs')) by (rewrite E'; now left).
    destruct (either_name dbg new t' cf rules rs' P' ND' I N R' p Hp) as [X|X]; [exact (A p Hp X)|].
    revert X. apply (no_blank_line_left dbg src new t t' cf rules rs rs' P ND NI P' ND' NI' SL I N R R' chosen Ed Ind BS); auto.
    - intros s. apply (chosen_from rs sort sorted chosen So HS Sel).
    - apply (all_chosen dbg src t cf rules rs P ND I N R sort sorted chosen So HS Sel None).
  Qed.

  Lemma loop_ends src t rs n : state src t rs -> 3 <= n ->
    exists new t' rs' dirty j, fix_loop dbg sort cf n 0 (mkFile src t [] rules) rs false = Ok (mkFile new t' [] rules, rs', dirty, j) /\
      j <= 2 /\ rule_suggestions rs' = [] /\ state new t' rs' /\ same_lines src new /\ (j = 0 -> new = src) /\ (0 < j <-> dirty = true).
  Proof.
    intros S L. destruct n as [|[|[|n]]]; try lia. clear L.
    assert (Stop : forall n i src t rs dirty, rule_suggestions rs = [] -> fix_loop dbg sort cf (Datatypes.S n) i (mkFile src t [] rules) rs dirty = Ok (mkFile src t [] rules, rs, dirty, i)).
    { intros n0 i s0 t0 r0 d E. cbn [fix_loop]. now rewrite E. }
    assert (Dec : forall rs, rule_suggestions rs = [] \/ rule_suggestions rs <> []) by (intros rs0; destruct (rule_suggestions rs0); [left|right]; congruence).
    destruct (Dec rs) as [E|E]; [rewrite Stop by exact E; exists src, t, rs, false, 0; split; [reflexivity|]; split; [lia|]; split; [exact E|]; split; [exact S|]; split; [reflexivity|]; split; [auto|]; split; [lia|intros X; discriminate X]|].
    destruct (one_round src t rs (Datatypes.S (Datatypes.S n)) 0 false S E) as (s1 & t1 & r1 & S1 & L1 & -> & A1 & _ & _).
    destruct (Dec r1) as [E1|E1]; [rewrite Stop by exact E1; exists s1, t1, r1, true, 1; split; [reflexivity|]; split; [lia|]; split; [exact E1|]; split; [exact S1|]; split; [exact L1|]; split; [lia|]; split; [auto|lia]|].
    destruct (one_round s1 t1 r1 (Datatypes.S n) 1 true S1 E1) as (s2 & t2 & r2 & S2 & L2 & -> & _ & A2 & _).
    rewrite Stop by auto. exists s2, t2, r2, true, 2. split; [reflexivity|]. split; [lia|]. split; [auto|]. split; [exact S2|]. split; [unfold same_lines in *; congruence|]. split; [lia|]. split; [auto|lia].
  Qed.
End Finish.
