(** C76 and C75: replacing && and || between white space. *)
From Coq Require Import NArith String Bool Arith Lia Permutation List.
Import ListNotations.
From Verif Require Import Text Kind Regex Lexer LexerProofs ParserApi Machine TreeMachine AccSpec TreeSpec DefaultConfig Respell.
From Verif Require PropEndings Relaid Tidy LexSwap LexLines PropIndent PropSkel PropRespell PropAccept PropParser PropLexer PropFits Total.
From Verif Require Import Red Typed Rule Naming Rules Check Process RedFacts WalkSpec PropProcess PropRun PropTree PropOff Found FoundRun PropFound PropFound4 PropFound6 Collide PropCollide PropAlone.
Local Open Scope list_scope.

(** * Spec *)
Definition logic_rules : list rule := [rule_logic_and; rule_logic_or].
(** Every && and || of the text has white space on both sides. *)
Definition spaced (src : text) : Prop := forall pre t post, lex src = pre ++ t :: post -> is [TK_DOUBLE_AMPERSAND; TK_DOUBLE_PIPE] t ->
  (exists p u, pre = p ++ [u] /\ is_trivia (tk_kind u) = true) /\ exists u p, post = u :: p /\ is_trivia (tk_kind u) = true.

(** * Replacing one operator *)
Definition op_edit (src : text) (s : suggestion) : Prop :=
  exists a w op word v b, src = (a ++ [w]) ++ op ++ v :: b /\ LexSwap.gapc w = true /\ LexSwap.gapc v = true /\ LexSwap.spelling op word /\
    sg_start s = blen (a ++ [w]) /\ sg_end s = sg_start s + blen op /\ sg_text s = word.
Lemma op_edit_fits src s : op_edit src s -> fits src s.
Proof.
  intros (a & w & op & word & v & b & E & _ & _ & _ & L1 & L2 & _). split; [lia|]. split.
  - exists (a ++ [w]), (op ++ v :: b). auto.
  - exists ((a ++ [w]) ++ op), (v :: b). rewrite E, !app_assoc, blen_app. split; [reflexivity|lia].
Qed.
Lemma edited_swapped : forall edits pre t new, edited (blen pre) t edits new -> Forall (op_edit (pre ++ t)) edits ->
  LexSwap.swapped (LexSwap.gap_last false pre) t new.
Proof.
  induction edits as [|s edits IH]; intros pre t new D F; inversion D as [|? keep old rest ? ? n S1 S2 D' E1 E2 E3]; subst; [apply LexSwap.swapped_refl|].
  inversion F as [|? ? (a & w & op & word & v & b & Es & W & V & P & L1 & L2 & L3) F']; subst.
  assert (Q : (pre ++ keep) ++ old ++ rest = (a ++ [w]) ++ op ++ v :: b) by (rewrite <- Es, <- app_assoc; reflexivity).
  apply PropIndent.blen_inj in Q as [Q1 Q]; [|rewrite blen_app; lia]. apply PropIndent.blen_inj in Q as [-> ->]; [|lia].
  specialize (IH ((pre ++ keep) ++ op) (v :: b) n).
  assert (G : LexSwap.gap_last false ((pre ++ keep) ++ op) = false).
  { destruct P as [[-> _]|[-> _]]; unfold LexSwap.gap_last; rewrite fold_left_app; reflexivity. }
  rewrite G in IH. apply LexSwap.swapped_prefix.
  assert (H : LexSwap.gap_last (LexSwap.gap_last false pre) keep = true).
  { transitivity (LexSwap.gap_last false (pre ++ keep)); [unfold LexSwap.gap_last; now rewrite fold_left_app|]. rewrite Q1, LexSwap.gap_last_app. exact W. }
  rewrite H. assert (X : LexSwap.swapped false (v :: b) n).
  { apply IH.
    - rewrite !blen_app. replace (blen pre + blen keep + blen op) with (sg_end s) by lia. exact D'.
    - rewrite <- !app_assoc. exact F'. }
  inversion X as [|? c s0 s0' X'|]; subst. now constructor.
Qed.

(** * What the rules suggest *)
Lemma operator_text dbg src t errs k x : parse_src dbg src = OK (t, errs) -> In k [TK_DOUBLE_AMPERSAND; TK_DOUBLE_PIPE] -> In x (elements t) ->
  is_node (el_tree x) = false -> el_kind x = k -> el_text x = txt (if kind_eqb k TK_DOUBLE_AMPERSAND then "&&" else "||").
Proof.
  intros HP K Hx N E. destruct x as [[k' s|k' cs] o p]; [|discriminate N]. unfold el_kind in E. cbn [el_tree tree_kind] in E. subst k'.
  unfold el_text. cbn [el_tree]. rewrite tree_text_leaf. pose proof (element_subtree _ _ Hx) as S. cbn [el_tree] in S.
  destruct (leaf_in_table _ _ _ _ HP k s S) as (pt & I & D); [destruct K as [<-|[<-|[]]]; reflexivity|].
  assert (H : forallb (fun e => negb (kind_eqb (snd e) k) || match fst e with PLit l => text_eqb (txt l) (txt (if kind_eqb k TK_DOUBLE_AMPERSAND then "&&" else "||")) | _ => false end) lex_table = true)
    by (destruct K as [<-|[<-|[]]]; vm_compute; reflexivity).
  rewrite forallb_forall in H. specialize (H _ I). cbn [fst snd] in H. rewrite (proj2 (kind_eqb_eq k k) eq_refl) in H. cbn [negb orb] in H.
  destruct pt; try discriminate H. apply text_eqb_eq in H. cbn [PropLexer.describes] in D. congruence.
Qed.
Lemma trivia_first src u : In u (lex src) -> is_trivia (tk_kind u) = true -> exists v r, tk_text u = v :: r /\ LexSwap.gapc v = true.
Proof.
  intros I T. pose proof (LexLines.trivia_no_letter src u I T) as F. destruct (PropLexer.C01_lex_lossless src) as (_ & N & _).
  rewrite Forall_forall in N. specialize (N u I). destruct (tk_text u) as [|v r]; [contradiction|]. exists v, r. split; [reflexivity|].
  inversion F as [|? ? H _]; subst. destruct H as [->|[->|[->| ->]]]; reflexivity.
Qed.
Lemma trivia_last src u : In u (lex src) -> is_trivia (tk_kind u) = true -> exists r w, tk_text u = r ++ [w] /\ LexSwap.gapc w = true.
Proof.
  intros I T. pose proof (LexLines.trivia_no_letter src u I T) as F. destruct (PropLexer.C01_lex_lossless src) as (_ & N & _).
  rewrite Forall_forall in N. specialize (N u I). destruct (exists_last N) as (r & w & E). rewrite E in *. exists r, w. split; [reflexivity|].
  apply Forall_app in F as [_ F]. inversion F as [|? ? H _]; subst. destruct H as [->|[->|[->| ->]]]; reflexivity.
Qed.
Definition new_spelling (k : kind) : text := txt (if kind_eqb k TK_DOUBLE_AMPERSAND then "and" else "or").
(** An operator of the tree stands between white space. *)
Lemma operator_place dbg src t errs k x msg : parse_src dbg src = OK (t, errs) -> spaced src -> In k [TK_DOUBLE_AMPERSAND; TK_DOUBLE_PIPE] -> In x (elements t) ->
  is_node (el_tree x) = false -> el_kind x = k -> op_edit src (mkSug (el_start x) (el_end x) (new_spelling k) msg).
Proof.
  intros HP Sp K Hx N E. pose proof (operator_text _ _ _ _ _ _ HP K Hx N E) as Tx.
  assert (I : In x (Tidy.tokens_of (elements t))) by (apply in_tokens; auto). apply in_split in I as (E1 & E2 & Es).
  pose proof (tokens_tiled _ _ _ (PropIndent.elements_tiled t)) as Ti. pose proof (tokens_nodes t) as Nd. pose proof (tokens_leaves t) as Le.
  rewrite Es in Ti, Nd, Le. apply PropIndent.tiled_app in Ti as (b & T1 & T2). cbn [PropIndent.tiled] in T2. rewrite N in T2. destruct T2 as [T2 _].
  apply Forall_app in Nd as [Nd _]. apply tiled_text in T1; [|exact Nd]. cbn [plus] in T1.
  rewrite map_app in Le. cbn [map] in Le.
  destruct (Relaid.merges_split _ _ (PropParser.C08_leaves_refine_tokens _ _ _ _ HP) _ _ (eq_sym Le)) as (t1 & t2 & El & M1 & M2).
  inversion M2 as [|k0 u ls ts Hk M3 Q1 Q2|c u ls ts Hc Hl M3 Q1 Q2]; subst; [|rewrite <- Q1 in K; destruct K as [X|[X|[]]]; discriminate X].
  assert (Ku : tk_kind u = el_kind x) by (destruct Hk as [Hk|[Hk _]]; [congruence|rewrite Hk in K; destruct K as [X|[X|[]]]; discriminate X]).
  destruct (Sp t1 u ts El) as [(p & u1 & -> & V1) (u2 & q & -> & V2)].
  { unfold is. rewrite Ku. exact K. }
  assert (I1 : In u1 (lex src)) by (rewrite El; apply in_app_iff; left; apply in_elt).
  assert (I2 : In u2 (lex src)) by (rewrite El; apply in_app_iff; right; right; now left).
  destruct (trivia_last _ _ I1 V1) as (r & w & R1 & W). destruct (trivia_first _ _ I2 V2) as (v & r' & R2 & V).
  destruct (PropLexer.C01_lex_lossless src) as (So & _ & _).
  apply Total.merges_text in M1. rewrite map_map in M1. cbn [snd] in M1. rewrite map_app, concat_app in M1. cbn [map List.concat] in M1. rewrite app_nil_r, R1 in M1.
  exists (List.concat (map tk_text p) ++ r), w, (el_text x), (new_spelling (el_kind x)), v, (r' ++ List.concat (map tk_text q)).
  split; [|split; [exact W|split; [exact V|split; [|split; [|split]]]]].
  - rewrite <- So at 1. rewrite El, !map_app, !concat_app. cbn [map List.concat]. rewrite R1, R2, app_nil_r, <- !app_assoc. cbn [app].
    replace (tk_text u) with (el_text x) by congruence. reflexivity.
  - rewrite Tx. unfold new_spelling. destruct K as [X|[X|[]]]; rewrite <- X; [left|right]; split; reflexivity.
  - cbn [sg_start]. rewrite T2, <- app_assoc. exact (f_equal blen M1).
  - cbn [sg_start sg_end]. apply el_end_text.
  - reflexivity.
Qed.

Section Suggested.
  Context (dbg : bool) (src : text) (t : tree) (errs : list perror) (cf : config) (rules : list rule) (results : list result).
  Hypothesis HP : parse_src dbg src = OK (t, errs).
  Hypothesis HI : incl rules (logic_rules ++ silent_rules).
  Hypothesis HN : NoDup (map rl_name rules).
  Hypothesis HR : run_rules cf rules t = Done results.

  Definition operator_edit (s : suggestion) : Prop :=
    exists x msg, In x (elements t) /\ is_node (el_tree x) = false /\ In (el_kind x) [TK_DOUBLE_AMPERSAND; TK_DOUBLE_PIPE] /\
      s = mkSug (el_start x) (el_end x) (new_spelling (el_kind x)) msg.
  Lemma known : incl rules RULE_DEFINITIONS.
  Proof.
    intros r Hr. apply HI, in_app_iff in Hr as [Hr|Hr]; [|exact (proj1 (silent t r Hr))].
    destruct Hr as [<-|[<-|[]]]; unfold RULE_DEFINITIONS; cbn [In]; tauto.
  Qed.
  Lemma logic_edits name op sh ctx e s : In op [TK_DOUBLE_AMPERSAND; TK_DOUBLE_PIPE] -> In e (elements t) ->
    In s (suggestions_of (rule_logic name op sh (new_spelling op)) ctx e) -> operator_edit s.
  Proof.
    intros K He H. unfold suggestions_of, rule_logic, node_rule in H. cbn [rl_node rl_token] in H.
    destruct (is_node (el_tree e)); [|destruct H].
    destruct (cast TWIG_BINARY_EXPRESSION e) as [b|] eqn:C; [|cbn in H; destruct H]. cbn [obind] in H. apply cast_is in C as ->.
    destruct (binary_operator e) as [x|] eqn:B; [|cbn in H; destruct H]. cbn [obind] in H. destruct (kind_eqb (el_kind x) op) eqn:E; [|cbn in H; destruct H].
    apply kind_eqb_eq in E. apply operator_child in B as [B N]. cbn [flat_map rs_suggestions add_suggestion primary_note create_result app In] in H.
    destruct H as [<-|[]]. exists x, (txt "Try this operator instead"%string).
    split; [apply within_elements; eapply within_children; [apply elements_within; exact He|exact B]|]. split; [exact N|]. rewrite E. auto.
  Qed.
  Lemma all_operator_edits p : In p (rule_suggestions results) -> operator_edit (snd p).
  Proof.
    intros Hp. apply in_flat_map in Hp as (r & Hr & Hp). pose proof known as HK.
    destruct (proj1 (C52_reports_name_their_rule cf rules t results HK HR) r Hr) as (rl & Hl & En).
    assert (Ho : In r (of_rule (rl_name rl) results)) by (apply filter_In; split; [exact Hr|]; apply text_eqb_eq; exact En).
    apply in_map_iff in Hp as (s & <- & Hs). cbn [snd].
    assert (Hs' : In s (flat_map rs_suggestions (of_rule (rl_name rl) results))) by (apply in_flat_map; eauto).
    destruct (of_run cf rules t results HK HN HR rl Hl) as (roots & fl & Er & Eo). rewrite Eo, flat_map_app in Hs'.
    pose proof (HI rl Hl) as Hin. apply in_app_iff in Hin as [Hin|Hin].
    - assert (R0 : roots = []) by (destruct Hin as [<-|[<-|[]]]; injection Er as <-; reflexivity). subst roots. cbn [flat_map app] in Hs'.
      rewrite flat_map_flat in Hs'. apply in_flat_map in Hs' as (e & He & Hs'). apply filter_In in He as [He _]. destruct (switched_off _ _); [destruct Hs'|].
      fold (suggestions_of rl (mkCtx cf (fl e)) e) in Hs'.
      destruct Hin as [<-|[<-|[]]].
      + eapply (logic_edits _ TK_DOUBLE_AMPERSAND); [now left|exact He|exact Hs'].
      + eapply (logic_edits _ TK_DOUBLE_PIPE); [right; now left|exact He|exact Hs'].
    - destruct (silent t rl Hin) as (_ & S1 & S2). rewrite (S2 _ _ Er) in Hs'. cbn [app] in Hs'.
      rewrite flat_map_flat in Hs'. apply in_flat_map in Hs' as (e & _ & He). destruct (switched_off _ _); [destruct He|].
      specialize (S1 (mkCtx cf (fl e)) e). unfold suggestions_of in S1. rewrite S1 in He. destruct He.
  Qed.
  Lemma edits_whole s : operator_edit s -> exists x, whole_token t x s.
  Proof. intros (x & msg & Hx & N & _ & ->). exists x. repeat split; auto. Qed.
  Lemma edits_grouped : grouped (rule_suggestions results) /\ proper (rule_suggestions results).
  Proof.
    split.
    - intros a b c Ha Hb Hc O1 O2. destruct (edits_whole _ (all_operator_edits a Ha)) as (x & X).
      destruct (edits_whole _ (all_operator_edits b Hb)) as (y & Y). pose proof (whole_apart _ _ _ _ _ X Y O1) as <-.
      destruct X as (_ & _ & X1 & X2), Y as (_ & _ & Y1 & Y2). unfold overlap in *. lia.
    - intros a Ha. destruct (edits_whole _ (all_operator_edits a Ha)) as (x & _ & _ & X1 & X2). pose proof (PropFits.start_end x). lia.
  Qed.
  Lemma op_round sort sorted chosen : sorts sort -> spaced src -> sort (rule_suggestions results) = Done sorted ->
    select_suggestions sorted = inr chosen -> exists new, apply_suggestions chosen src = Done new /\ LexSwap.swapped false src new.
  Proof.
    intros C Sp S E. destruct edits_grouped as [G Pr].
    pose proof (C21_no_overlapping_edits_partial _ _ _ _ C S E G Pr) as NO. destruct (C _ _ S) as [Pm Sd]. specialize (Sd G Pr).
    assert (O : in_order chosen).
    { assert (PW : pairwise (fun a b => ordering a b <> Gt) chosen).
      { unfold select_suggestions in E. destruct (overlapping_rules sorted); [discriminate|]. injection E as <-.
        apply pairwise_map_filter. eapply PropIndent.pairwise_impl; [|exact Sd]. intros a b H _ . exact H. }
      clear -NO PW. induction chosen as [|x l IH]; [constructor|]. destruct NO as [N1 N2], PW as [W1 W2]. constructor; [|auto].
      apply Forall_forall. intros y Hy. rewrite Forall_forall in N1, W1. specialize (N1 y Hy). specialize (W1 y Hy).
      apply ordering_lt. destruct (ordering x y) eqn:Q; [|reflexivity|contradiction]. apply ordering_eq in Q. contradiction. }
    assert (IE : Forall (op_edit src) chosen).
    { apply Forall_forall. intros s Hs. destruct (PropIndent.chosen_incl _ _ E s Hs) as (p & Hp & <-).
      assert (Hp' : In p (rule_suggestions results)) by (apply (Permutation_in _ (Permutation_sym Pm)); exact Hp).
      destruct (all_operator_edits p Hp') as (x & msg & Hx & N & K & ->). exact (operator_place _ _ _ _ _ _ _ HP Sp K Hx N eq_refl). }
    destruct (C20_edits_are_applied_exactly src chosen O) as (new & A & Ed).
    { revert IE. apply Forall_impl. exact (op_edit_fits src). }
    exists new. split; [exact A|]. exact (edited_swapped chosen [] src new Ed IE).
  Qed.
  Lemma op_collision sort sorted e : sorts sort -> sort (rule_suggestions results) = Done sorted -> select_suggestions sorted <> inl e.
  Proof.
    intros C S E. destruct (C _ _ S) as [Pm _]. assert (X : exists name, e = OverlappingSuggestion name).
    { unfold select_suggestions in E. destruct (overlapping_rules sorted); [|discriminate E]. injection E as <-. eauto. }
    destruct X as (name & ->). destruct (all_collisions dbg src t errs cf rules results sorted name HP known HN HR Pm E) as [Co Hn].
    apply in_map_iff in Hn as (rl & En & Hr). apply HI in Hr.
    assert (F : forallb (fun r => negb (text_eqb (rl_name r) (txt "twig-use-is-same-as") || text_eqb (rl_name r) (txt "twig-use-is-not-same-as") ||
      text_eqb (rl_name r) (txt "twig-block-line-breaks"))) (logic_rules ++ silent_rules) = true) by (vm_compute; reflexivity).
    rewrite forallb_forall in F. specialize (F rl Hr). rewrite En in F. apply negb_true_iff in F. apply orb_false_iff in F as [F F3]. apply orb_false_iff in F as [F1 F2].
    destruct (collision_cause dbg src _ _ _ _ HP Co) as [(k & [[-> _]|[-> _]] & _)|[-> _]];
      match goal with H : text_eqb ?a ?a = false |- _ => rewrite (proj2 (text_eqb_eq a a) eq_refl) in H; discriminate H end.
  Qed.
End Suggested.

(** * One round after another *)
Lemma Forall2_middle {A} (R : A -> A -> Prop) : forall pre' l t' post', Forall2 R l (pre' ++ t' :: post') ->
  exists pre t post, l = pre ++ t :: post /\ Forall2 R pre pre' /\ R t t' /\ Forall2 R post post'.
Proof.
  intros pre' l t' post' F. apply Forall2_app_inv_r in F as (pre & m & F1 & F2 & ->). inversion F2 as [|t ? post ? Ht Fp]; subst.
  exists pre, t, post. auto.
Qed.
Lemma spaced_alike src src' : Forall2 alike (lex src) (lex src') -> spaced src -> spaced src'.
Proof.
  intros F Sp pre' t' post' E I. rewrite E in F. apply Forall2_middle in F as (pre & t & post & El & F1 & A & F2).
  assert (It : is [TK_DOUBLE_AMPERSAND; TK_DOUBLE_PIPE] t).
  { unfold is in *. destruct A as [[K _]|[(K & _ & K' & _)|(K & _ & K' & _)]]; [now rewrite K| |]; rewrite K' in I; destruct I as [X|[X|[]]]; discriminate X. }
  destruct (Sp pre t post El It) as [(p & u & -> & U) (v & q & -> & V)]. split.
  - apply Forall2_app_inv_l in F1 as (p' & m & _ & F & ->). inversion F as [|? u' ? l' Au Fl]; subst. inversion Fl; subst.
    exists p', u'. split; [reflexivity|]. now rewrite <- (LexSwap.alike_trivia _ _ Au).
  - inversion F2 as [|? v' ? l' Av Fl]; subst. exists v', l'. split; [reflexivity|]. now rewrite <- (LexSwap.alike_trivia _ _ Av).
Qed.
Lemma alike_trans a b c : alike a b -> alike b c -> alike a c.
Proof.
  unfold alike. intros [[K X]|[(K & X & K' & X')|(K & X & K' & X')]] [[L Y]|[(L & Y & L' & Y')|(L & Y & L' & Y')]];
    try (rewrite K' in L; discriminate L); rewrite ?K, ?X, ?L, ?Y, ?K', ?X', <- ?L, <- ?Y, ?K', ?X'; auto 8.
Qed.
Lemma alike_all_trans l m n : Forall2 alike l m -> Forall2 alike m n -> Forall2 alike l n.
Proof.
  intros F. revert n. induction F as [|a b l m A F IH]; intros n G; inversion G as [|? c ? n' B G']; subst; [constructor|].
  constructor; [eapply alike_trans; eauto|auto].
Qed.

Section Loop.
  Context (dbg : bool) (sort : list (text * suggestion) -> out (list (text * suggestion))) (cf : config).
  Hypothesis C : sorts sort.
  Lemma op_loop rules : incl rules (logic_rules ++ silent_rules) -> NoDup (map rl_name rules) -> forall n i src t rs dirty,
    parse_file dbg src = Done (t, []) -> template (nontriv (lex src)) -> spaced src -> run_rules cf rules t = Done rs ->
    match fix_loop dbg sort cf n i (mkFile src t [] rules) rs dirty with
    | Ok (fc, _, _, _) => Forall2 alike (lex src) (lex (fc_source fc)) /\ parse_file dbg (fc_source fc) = Done (fc_tree fc, [])
    | Err e => e = MaxApplyIteration
    | Crash => exists l, sort l = Crashed
    end.
  Proof.
    intros I N. induction n as [|n IH]; intros i src t rs dirty P T Sp R; [reflexivity|]. cbn [fix_loop].
    assert (HP : parse_src dbg src = OK (t, [])).
    { unfold parse_file in P. destruct (parse_src dbg src) as [[t0 e0]| |]; try discriminate P. injection P as -> ->. reflexivity. }
    destruct (rule_suggestions rs) as [|x l] eqn:E.
    { split; [|exact P]. cbn [fc_source]. clear. induction (lex src) as [|a l IH]; constructor; [left; auto|exact IH]. }
    rewrite <- E. destruct (sort (rule_suggestions rs)) as [sorted|] eqn:HS; [|eauto].
    destruct (select_suggestions sorted) as [e|chosen] eqn:Sel.
    - destruct (op_collision dbg src t [] cf rules rs HP I N R sort sorted e C HS Sel).
    - cbn [fc_source fc_rules]. destruct (op_round dbg src t [] cf rules rs HP I N R sort sorted chosen C Sp HS Sel) as (new & -> & SW).
      destruct (LexSwap.swapped_respelled _ _ _ SW) as [F Re].
      pose proof (template_respelled _ _ T Re) as T'. destruct (PropAccept.C61_well_formed_templates_are_accepted dbg new T') as (t' & P').
      assert (Pf : parse_file dbg new = Done (t', [])) by (unfold parse_file; now rewrite P'). rewrite Pf.
      destruct (PropSkel.C14_rules_never_crash cf _ _ _ _ rules Pf (known t rules I)) as (rs' & R'). rewrite R'.
      specialize (IH (S i) new t' rs' true Pf T' (spaced_alike _ _ F Sp) R').
      destruct (fix_loop dbg sort cf n (S i) (mkFile new t' [] rules) rs' true) as [[[[fc ?] ?] ?]|e|]; [|exact IH|exact IH].
      destruct IH as [IH1 IH2]. split; [|exact IH2]. exact (alike_all_trans _ _ _ F IH1).
  Qed.
End Loop.

(** * C76 and C75 *)

(** Where white space stands around every && and ||, the two rules about them - with any of the rules that only
    report - replace just these tokens: the tokens of the text that is written are those of the template one by
    one, white space included, but for and in the place of some && and or in the place of some ||.
    So no operator gets lost, and the text parses without errors.
    Missing: operators without white space (C76_operators_are_replaced_faithfully_refuted), templates that parse
    but are not of the form of C61, and the shape of the new tree. *)
Theorem C76_operators_are_replaced_faithfully_partial : forall dbg sort cf inspect write_ok definitions src effects o,
  sorts sort -> incl definitions (logic_rules ++ silent_rules) -> NoDup (map rl_name definitions) ->
  template (nontriv (lex src)) -> spaced src ->
  run_analysis dbg sort cf true inspect write_ok definitions src = (effects, o) -> forall new, In (WriteFile new) effects ->
  Forall2 alike (lex src) (lex new) /\ exists t, parse_file dbg new = Done (t, []).
Proof.
  intros dbg sort cf inspect write_ok definitions src effects o C I N T Sp A new W.
  destruct (PropAccept.C61_well_formed_templates_are_accepted dbg src T) as (t & P').
  assert (P : parse_file dbg src = Done (t, [])) by (unfold parse_file; now rewrite P').
  unfold run_analysis in A. rewrite P in A. pose proof (known t definitions I) as HK.
  destruct (active_known (root_elem t) definitions HK N) as [A1 A2].
  destruct (run_rules cf (get_file_active_rules (root_elem t) definitions) t) as [rs|] eqn:R; [|injection A as <- _; destruct W].
  pose proof (op_loop dbg sort cf C _ (fun r Hr => I r (A1 r Hr)) A2 10 0 src t rs false P T Sp R) as L. unfold iteratively_apply_suggestions in A.
  destruct (fix_loop dbg sort cf 10 0 (mkFile src t [] (get_file_active_rules (root_elem t) definitions)) rs false) as [[[[fc rs'] dirty] j]|e|];
    [|injection A as <- _; destruct W|injection A as <- _; destruct W].
  assert (G : Forall2 alike (lex src) (lex (fc_source fc)) /\ exists t, parse_file dbg (fc_source fc) = Done (t, [])).
  { destruct L as [L1 L2]. eauto. }
  destruct dirty; [destruct write_ok|]; injection A as <- _.
  - destruct W as [[= <-]|W]; [exact G|]. destruct (not_sent _ _ _ _ W).
  - destruct W as [[= <-]|[]]. exact G.
  - destruct (not_sent _ _ _ _ W).
Qed.

(** * Cases *)
Fixpoint spacedb (before : bool) (l : list token) : bool :=
  match l with
  | [] => true
  | t :: r => (if existsb (kind_eqb (tk_kind t)) [TK_DOUBLE_AMPERSAND; TK_DOUBLE_PIPE] then before && match r with u :: _ => is_trivia (tk_kind u) | [] => false end else true)
      && spacedb (is_trivia (tk_kind t)) r
  end.
Lemma spacedb_sound : forall l b pre t post, spacedb b l = true -> l = pre ++ t :: post -> is [TK_DOUBLE_AMPERSAND; TK_DOUBLE_PIPE] t ->
  ((pre = [] /\ b = true) \/ exists p u, pre = p ++ [u] /\ is_trivia (tk_kind u) = true) /\ exists u p, post = u :: p /\ is_trivia (tk_kind u) = true.
Proof.
  intros l b pre. revert l b. induction pre as [|u pre IH]; intros l b t post H -> I; cbn [app spacedb] in H; apply andb_true_iff in H as [H1 H2].
  - unfold is in I. apply mem_In in I. unfold mem in I. rewrite I in H1. apply andb_true_iff in H1 as [H1 H3].
    split; [left; auto|]. destruct post as [|u p]; [discriminate H3|]. eauto.
  - destruct (IH _ _ t post H2 eq_refl I) as [[[-> U]|(p & v & -> & V)] X]; (split; [right|exact X]).
    + exists [], u. auto.
    + exists (u :: p), v. auto.
Qed.
Lemma spacedb_spaced src : spacedb false (lex src) = true -> spaced src.
Proof. intros H pre t post E I. destruct (spacedb_sound _ _ _ _ _ H E I) as [[[_ X]|X] Y]; [discriminate X|auto]. Qed.

(** Two operators, one at the end of a line; both are replaced in one run of --fix. *)
Definition two_operators : text := txt "{{ a &&" ++ [10%N; 9%N] ++ txt "b || c }}".
Definition two_words : text := txt "{{ a and" ++ [10%N; 9%N] ++ txt "b or c }}".
Example C76_case : template (nontriv (lex two_operators)) /\ spaced two_operators.
Proof.
  split; [|apply spacedb_spaced; vm_compute; reflexivity]. set (l := nontriv (lex two_operators)). vm_compute in l. subst l.
  match goal with |- template [?o; ?a; ?p; ?b; ?q; ?d; ?c] =>
    assert (V : variable a /\ variable b /\ variable d);
    [repeat split; try discriminate; try (vm_compute; intuition discriminate); do 2 eexists; split; try reflexivity; split; try constructor; unfold name_start, letter; lia|];
    destruct V as (Va & Vb & Vd); apply (content_cons InBody [o; a; p; b; q; d; c] []); [|constructor];
    apply item_statement, statement_var; [discriminate|]; exists o, true, [a; p; b; q; d], c; split; [reflexivity|]; split; [left; reflexivity|]; split; [|left; reflexivity];
    apply (expr_intro true [a] [p; b; q; d] []); [apply (operand_primary [a] []); [now constructor|constructor]| |constructor];
    apply (ops_binary p [b] [q; d]); [unfold is; cbn [tk_kind]; apply mem_In; reflexivity|apply (operand_primary [b] []); [now constructor|constructor]|];
    apply (ops_binary q [d] []); [unfold is; cbn [tk_kind]; apply mem_In; reflexivity|apply (operand_primary [d] []); [now constructor|constructor]|constructor]
  end.
Qed.
Example C76_case_fixed : PropEndings.writes two_words
  (run_analysis true insertion_sort default_config true false true (logic_rules ++ silent_rules) two_operators) = true.
Proof. vm_compute. reflexivity. Qed.
Example C76_case_rules : sorts insertion_sort /\ NoDup (map rl_name (logic_rules ++ silent_rules)).
Proof.
  split; [exact insertion_sort_sorts|]. repeat (constructor; [intros H; cbn [map In app] in H; repeat (destruct H as [H|H]; [discriminate H|]); destruct H|]); constructor.
Qed.
(** Without the white space the tokens do not stay. *)
Example C76_case_condition : spacedb false (lex (txt "{{ a&&b }}")) = false /\
  List.length (lex (txt "{{ a&&b }}")) <> List.length (lex (txt "{{ aandb }}")).
Proof. split; [vm_compute; reflexivity|]. assert (E : Nat.eqb (List.length (lex (txt "{{ a&&b }}"))) (List.length (lex (txt "{{ aandb }}"))) = false) by (vm_compute; reflexivity). now apply Nat.eqb_neq in E. Qed.

Print Assumptions C76_operators_are_replaced_faithfully_partial.
