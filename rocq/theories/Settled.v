(** One round of layout fixes: which edits are chosen, and what is left to report.  Machinery for C72. *)
From Coq Require Import NArith String Bool Arith Lia Permutation List.
Import ListNotations.
From Verif Require Import Text Kind Regex Lexer LexerProofs ParserApi Machine TreeSpec Layout.
From Verif Require PropShape PropLexer PropParser PropLines LexLayout LayoutSim PropIndent PropSkel.
From Verif Require Import Relaid Snug.
From Verif Require Import Red Typed Rule Rules Check Process RedFacts WalkSpec PropProcess PropRun PropTree PropOff Found PropFound PropFound6 Tidy Nested Rounds.
Local Notation length := List.length (only parsing).
Local Open Scope list_scope.

(** * Stable sorting *)
Definition equivalent (z y : text * suggestion) : bool := match ordering (snd z) (snd y) with Eq => true | _ => false end.
(** Suggestions that overlap stay in their order, where overlapping is consistent. *)
Definition stable (sort : list (text * suggestion) -> out (list (text * suggestion))) : Prop :=
  forall l sorted, sort l = Done sorted -> grouped l -> proper l ->
  forall z, In z l -> filter (equivalent z) sorted = filter (equivalent z) l.

Lemma insert_equivalent all z x : grouped all -> In z all -> In x all -> forall acc, incl acc all ->
  filter (equivalent z) (insert_tail x acc) = (if equivalent z x then [x] else []) ++ filter (equivalent z) acc.
Proof.
  intros G Iz Ix. induction acc as [|y acc IH]; intros I; [cbn [insert_tail filter]; now destruct (equivalent z x)|]. cbn [insert_tail].
  assert (D : filter (equivalent z) (x :: y :: acc) = (if equivalent z x then [x] else []) ++ filter (equivalent z) (y :: acc)).
  { cbn [filter]. now destruct (equivalent z x). }
  destruct (ordering (snd x) (snd y)) eqn:O; [exact D| |exact D].
  cbn [filter]. rewrite IH by (intros v Hv; apply I; now right). destruct (equivalent z y) eqn:Ey; [|reflexivity].
  destruct (equivalent z x) eqn:Ex; [|reflexivity]. exfalso. unfold equivalent in *.
  destruct (ordering (snd z) (snd y)) eqn:Oy; try discriminate Ey. destruct (ordering (snd z) (snd x)) eqn:Ox; try discriminate Ex.
  apply ordering_eq in Oy, Ox. assert (X : overlap (snd x) (snd y)). { apply (G x z y); auto; [apply I; now left|now apply overlap_sym]. }
  apply ordering_eq in X. congruence.
Qed.
Lemma insertion_sort_stable : stable insertion_sort.
Proof.
  intros l sorted E G _ z Iz. injection E as <-.
  assert (F : forall m acc, incl m l -> incl acc l -> filter (equivalent z) (fold_left (fun acc x => insert_tail x acc) m acc) = rev (filter (equivalent z) m) ++ filter (equivalent z) acc).
  { induction m as [|x m IH]; intros acc Im Ia; [reflexivity|]. cbn [fold_left]. rewrite IH.
    - rewrite (insert_equivalent l) by (auto; apply Im; now left). cbn [filter]. destruct (equivalent z x); [|reflexivity]. cbn [rev]. now rewrite <- !app_assoc.
    - intros v Hv. apply Im. now right.
    - intros v Hv. apply (Permutation_in _ (Permutation_sym (insert_tail_perm x acc))) in Hv. destruct Hv as [<-|Hv]; [apply Im; now left|auto]. }
  assert (R : forall m, filter (equivalent z) (rev m) = rev (filter (equivalent z) m)).
  { induction m as [|x m IH]; [reflexivity|]. cbn [rev]. rewrite filter_app, IH. cbn [filter]. destruct (equivalent z x); cbn [rev]; [reflexivity|now rewrite app_nil_r]. }
  rewrite R, F by (auto using incl_refl; intros v []). cbn [filter]. now rewrite app_nil_r, rev_involutive.
Qed.

(** The names of the rules that are left out. *)
Lemma left_out : forall l names n, overlapping_rules l = inr names -> In n names ->
  exists m1 a b m2, l = m1 ++ a :: b :: m2 /\ overlap (snd a) (snd b) /\ fst b = n /\ fst a <> n.
Proof.
  induction l as [|[ra a] l IH]; intros names n E I; [injection E as <-; destruct I|].
  destruct l as [|[rb b] l'] eqn:L; [injection E as <-; destruct I|]. rewrite <- L in *.
  assert (R : (ordering a b = Eq /\ ra <> rb /\ n = rb) \/ exists names', overlapping_rules l = inr names' /\ In n names').
  { cbn [overlapping_rules] in E. rewrite L in E at 1. destruct (ordering a b); [|right; exists names; auto|right; exists names; auto].
    destruct (text_eqb ra rb) eqn:T; [discriminate|]. destruct (overlapping_rules l) as [|ns]; [discriminate|]. injection E as <-.
    destruct I as [<-|I]; [left|right; exists ns; auto]. split; [reflexivity|]. split; [|reflexivity]. intros ->. assert (X : text_eqb rb rb = true) by now apply text_eqb_eq. congruence. }
  destruct R as [(O & N & ->)|(ns & R1 & R2)].
  - exists [], (ra, a), (rb, b), l'. rewrite L. split; [reflexivity|]. split; [now apply ordering_eq|]. split; [reflexivity|exact N].
  - destruct (IH ns n R1 R2) as (m1 & x & y & m2 & E2 & H). exists ((ra, a) :: m1), x, y, m2. split; [cbn [app]; now rewrite <- E2|exact H].
Qed.

(** Where the suggestions of one rule come first, it is never left out. *)
Lemma first_rule_stays sort l sorted names n1 n2 i w : stable sort -> sorts sort -> sort l = Done sorted -> grouped l -> proper l ->
  l = i ++ w -> Forall (fun p => fst p = n1) i -> Forall (fun p => fst p = n2) w -> n1 <> n2 ->
  overlapping_rules sorted = inr names -> ~ In n1 names.
Proof.
  intros St So E G P El Fi Fw N O I. destruct (So _ _ E) as [Pm _]. destruct (left_out _ _ _ O I) as (m1 & a & b & m2 & Es & Ov & Eb & Ea).
  assert (Ib : In b l). { apply (Permutation_in _ (Permutation_sym Pm)). rewrite Es. apply in_or_app. right. right. now left. }
  assert (Ia : In a l). { apply (Permutation_in _ (Permutation_sym Pm)). rewrite Es. apply in_or_app. right. now left. }
  pose proof (St _ _ E G P b Ib) as F. rewrite Es, El, !filter_app in F. cbn [filter] in F.
  assert (Qa : equivalent b a = true). { unfold equivalent. apply overlap_sym, ordering_eq in Ov. now rewrite Ov. }
  assert (Qb : equivalent b b = true).
  { unfold equivalent. assert (X : overlap (snd b) (snd b)) by (apply (G b a b); auto; now apply overlap_sym). apply ordering_eq in X. now rewrite X. }
  rewrite Qa, Qb in F. rewrite Forall_forall in Fi, Fw.
  assert (Wa : In a w). { rewrite El in Ia. apply in_app_iff in Ia as [X|X]; [|exact X]. apply Fi in X. congruence. }
  assert (Hi : forall x, In x (filter (equivalent b) i) -> fst x = n1) by (intros x X; apply filter_In in X as [X _]; auto).
  assert (Hw : forall x, In x (filter (equivalent b) w) -> fst x = n2) by (intros x X; apply filter_In in X as [X _]; auto).
  revert F Hi Hw. generalize (filter (equivalent b) i), (filter (equivalent b) w), (filter (equivalent b) m1), (filter (equivalent b) m2). clear - Eb Ea N.
  induction l as [|x l IH]; intros l0 l1 l2 F Hi Hw.
  - cbn [app] in F. subst l0. apply N. rewrite <- Eb. apply Hw. apply in_or_app. right. right. now left.
  - destruct l1 as [|y l1]; cbn [app] in F; injection F as -> F; [apply Ea, Hi; now left|]. eapply IH; [exact F|intros z Z; apply Hi; now right|exact Hw].
Qed.

(** * Templates whose directives are about other rules *)
Definition indentation_name : text := txt "indentation"%string.
Definition empty_lines_name : text := txt "whitespace-between-line-breaks"%string.
(** Rules other than the two about layout, at least one. *)
Definition others (names : list text) : Prop := names <> [] /\ ~ In indentation_name names /\ ~ In empty_lines_name names.
(** Each directive names rules, but not those about layout. *)
Definition directives_elsewhere (t : tree) : Prop :=
  forall cs, subtree (Node LUDTWIG_DIRECTIVE_IGNORE cs) t -> others (tree_rules (Node LUDTWIG_DIRECTIVE_IGNORE cs)).
Definition layout_name (rule : text) : Prop := rule = indentation_name \/ rule = empty_lines_name.
Lemma others_mem rule names : layout_name rule -> others names -> mem_text rule names = false.
Proof.
  intros L (_ & O1 & O2). destruct (mem_text rule names) eqn:M; [|reflexivity]. unfold mem_text in M. apply existsb_exists in M as (x & Hx & E).
  apply text_eqb_eq in E. subst x. destruct L as [-> | ->]; contradiction.
Qed.
(** No hash sign followed by an opening brace. *)
Definition no_interpolation (src : text) : Prop :=
  forall pre a b post, nontriv (lex src) = pre ++ a :: b :: post -> ~ (tk_kind a = TK_HASHTAG /\ tk_kind b = TK_OPEN_CURLY).

Lemma left_subtree t e c p d : within t e -> el_path e = c :: p -> In d (cr_left c) -> subtree d t.
Proof.
  intros [W1 W2] Q F. rewrite Q in W1, W2. cbn [rebuild placed] in W1, W2.
  assert (S : subtree (Node (cr_kind c) (rev (cr_left c) ++ el_tree e :: cr_right c)) t).
  { apply (PropSkel.within_subtree t p _ (cr_off c)). split; [exact W1|apply W2]. }
  clear -S F. remember (Node (cr_kind c) _) as x eqn:E. induction S as [|k cs' y Hy S IH].
  - rewrite E. apply sub_child with d; [apply in_or_app; left; now apply -> in_rev|constructor].
  - apply sub_child with y; [exact Hy|apply IH; exact E].
Qed.
Definition elsewhere (names : option (list text)) : Prop := match names with Some l => others l | None => True end.
Lemma elsewhere_blanket names : elsewhere names -> blanket names = false.
Proof. destruct names as [[|x l]|]; [intros [H _]; now destruct H|reflexivity|reflexivity]. Qed.
Lemma elsewhere_lists rule names : layout_name rule -> elsewhere names -> lists rule names = false.
Proof. destruct names as [l|]; [apply others_mem|reflexivity]. Qed.
Lemma no_names t e : directives_elsewhere t -> within t e -> elsewhere (names_before e) /\ elsewhere (names_before_node e).
Proof.
  intros N W. assert (D : forall d, subtree d t -> elsewhere (if is_directive d then Some (tree_rules d) else None)).
  { intros d S. destruct d as [|k cs]; [exact I|]. destruct (is_directive (Node k cs)) eqn:Q; [|exact I]. cbn [is_directive] in Q.
    assert (k = LUDTWIG_DIRECTIVE_IGNORE) as -> by (destruct k; try discriminate Q; reflexivity). exact (N _ S). }
  unfold names_before, names_before_node. destruct (el_path e) as [|c p] eqn:Q; [split; exact I|]. split.
  - destruct (cr_left c) as [|d l] eqn:L; [exact I|]. apply D. eapply left_subtree; eauto. rewrite L. now left.
  - destruct (find is_node (cr_left c)) as [d|] eqn:F; [|exact I]. apply find_some in F as [F _]. apply D. eapply left_subtree; eauto.
Qed.
Lemma elsewhere_names t : directives_elsewhere t -> PropIndent.directives_name_rules t.
Proof. intros N cs S. apply (N cs S). Qed.
Lemma lineage_inside t e x : In e (elements t) -> In x (lineage e) -> within t x.
Proof. intros I H. destruct e as [y off p]. eapply PropIndent.lineage_within; [|exact H]. now apply elements_within. Qed.

Section State.
  Context (dbg : bool) (src : text) (t : tree) (cf : config).
  Hypothesis P : parse_src dbg src = OK (t, []).
  Hypothesis ND : directives_elsewhere t.
  Hypothesis NI : no_interpolation src.

  Lemma parsed_file : parse_file dbg src = Done (t, []).
  Proof. unfold parse_file. now rewrite P. Qed.
  Lemma all_visible rule e : layout_name rule -> In e (elements t) -> visible rule e.
  Proof.
    intros L I. split.
    - unfold seen. apply negb_true_iff. destruct (existsb run_hides (lineage e)) eqn:E; [|reflexivity]. apply existsb_exists in E as (x & Hx & E).
      pose proof (lineage_inside t e x I Hx) as W. unfold run_hides in E. rewrite (elsewhere_blanket _ (proj1 (no_names t x ND W))) in E. rewrite orb_false_r in E.
      unfold error_node in E. apply andb_true_iff in E as [E1 E2]. apply kind_eqb_eq in E2. destruct x as [[|k cs] off p]; [discriminate E1|].
      pose proof (PropShape.C44_no_error_nodes _ _ _ P _ _ (PropSkel.within_subtree _ _ _ _ W)) as K. contradiction.
    - unfold switched_off. destruct (existsb _ (lineage e)) eqn:E; [|reflexivity]. apply existsb_exists in E as (x & Hx & E).
      rewrite (elsewhere_lists rule _ L (proj1 (no_names t x ND (lineage_inside t e x I Hx)))) in E. discriminate E.
  Qed.
  Lemma none_kept rule x : layout_name rule -> In x (elements t) -> ~ kept_from rule x.
  Proof.
    intros L I (a & Ha & M & _). unfold tree_marks in M. rewrite (elsewhere_lists rule _ L (proj2 (no_names t a ND (lineage_inside t x a I Ha)))) in M. now rewrite andb_false_r in M.
  Qed.
  Lemma walked_all : walked t = tokens_of (elements t).
  Proof. unfold walked. now rewrite (PropIndent.all_seen _ _ _ P (elsewhere_names t ND)). Qed.
  Lemma protected_iff x : preformatted x <-> indent_protected x = true.
  Proof. unfold preformatted, indent_protected. now rewrite flag_spec. Qed.

  Lemma kinds_are_tokens : token_kinds t.
  Proof.
    intros k s I. pose proof (PropParser.C08_leaves_refine_tokens _ _ _ _ P) as M. assert (K : k = TK_WORD \/ exists tk, In tk (lex src) /\ k = tk_kind tk).
    { revert I. induction M as [|k0 t0 ls ts Hk H IH|c t0 ls ts Hc Hl H IH]; intros I; [destruct I| |].
      - destruct I as [I|I]; [injection I as <- <-; destruct Hk as [->|[-> _]]; [right; exists t0; split; [now left|reflexivity]|now left]|].
        destruct (IH I) as [->|(tk & Ht & ->)]; [now left|right; exists tk; split; [now right|reflexivity]].
      - destruct I as [I|I]; [injection I as <- <-; now left|].
        destruct (IH I) as [->|(tk & Ht & ->)]; [now left|right; exists tk; split; [right; now right|reflexivity]]. }
    destruct K as [->|(tk & Ht & ->)]; [reflexivity|]. pose proof (PropParser.lexed_display _ _ Ht) as D.
    destruct (tk_kind tk); try reflexivity; destruct D; reflexivity.
  Qed.
  Lemma always_plain pre r : lex src = pre ++ r -> plain r.
  Proof.
    intros E. unfold plain, l_following, l_following_content. destruct r as [|t0 r]; [reflexivity|]. cbn [map].
    assert (Q : nontriv (lex src) = nontriv pre ++ nontriv (t0 :: r)) by (rewrite E; apply filter_app).
    destruct (nontriv (t0 :: r)) as [|a [|b post]]; [reflexivity| |].
    - cbn [l_follow]. now destruct (kind_eqb (tk_kind a) TK_HASHTAG).
    - cbn [l_follow]. rewrite !andb_true_r. destruct (kind_eqb (tk_kind a) TK_HASHTAG) eqn:A; [|reflexivity]. destruct (kind_eqb (tk_kind b) TK_OPEN_CURLY) eqn:B; [|reflexivity].
      apply kind_eqb_eq in A, B. destruct (NI _ _ _ _ Q). auto.
  Qed.
  Lemma placed : placed_file t.
  Proof. eapply snug_tree; [exact P|exact always_plain]. Qed.

  Lemma info_token x : In x (tokens_of (elements t)) -> info cf x = (depth cf x, shift x, indent_protected x).
  Proof.
    intros I. apply in_tokens in I as [I N]. unfold info, depth_in, shift_in, depth, shift, ancestors_of. rewrite (lineage_cons x). cbn [tl filter map].
    assert (D : deepening cf x = false).
    { unfold deepening. fold (deepen_kind (el_kind x)). replace (deepen_kind (el_kind x)) with false; [reflexivity|]. symmetry.
      apply (kinds_are_tokens (el_kind x) (el_text x)). now apply PropLines.elements_leaves. }
    assert (Al : aligning x = 0). { unfold aligning, node_of. destruct (parent x); [|reflexivity]. now rewrite N. }
    rewrite D, Al. reflexivity.
  Qed.
  Definition tokens : list elem := tokens_of (elements t).
  Definition ek (e : entry) : kind := fst (fst e).
  Definition et (e : entry) : text := snd (fst e).
  Definition entries : list entry := map (entry_of cf) tokens.
  Lemma entries_pairs l : map (pr ek et) (map (entry_of cf) l) = map (pr el_kind el_text) l.
  Proof. rewrite map_map. apply map_ext. reflexivity. Qed.
  Lemma tokens_pairs : map (pr el_kind el_text) tokens = leaves t.
  Proof. unfold tokens. rewrite <- tokens_leaves. reflexivity. Qed.
  Lemma tokens_laid : laid (map (pr el_kind el_text) tokens).
  Proof. rewrite tokens_pairs. eapply leaves_laid, P. Qed.
  Lemma tokens_texts : texts (map (pr el_kind el_text) tokens) = src.
  Proof. rewrite <- (tokens_source _ _ _ _ P). unfold texts, tokens. now rewrite map_map. Qed.
  Lemma entries_notes : entries = notes cf (0, 0, false) t.
  Proof.
    destruct placed as (cs & E & _). unfold entries, tokens. rewrite E. apply tokens_notes. rewrite <- E.
    eapply PropIndent.nothing_hidden; [exact P|]. now apply elsewhere_names.
  Qed.
  Lemma entries_steady : steady entries.
  Proof. rewrite entries_notes. apply file_steady; [exact placed|exact kinds_are_tokens]. Qed.

  (** White space has the note of the next token, if there is one. *)
  Lemma note_ahead : forall b x a, entries = a ++ x :: b ->
    snd x = match first_solid ek (x :: b) with Some y => snd y | None => (0, 0, false) end.
  Proof.
    induction b as [|y b IH]; intros x a E.
    - cbn [first_solid find]. fold (solid x). destruct (solid x) eqn:S; unfold ek; fold (solid x); rewrite S; [reflexivity|].
      apply (file_final cf t); [exact placed| |exact S]. rewrite <- entries_notes, E, final_app. reflexivity.
    - specialize (IH y (a ++ [x])). rewrite <- app_assoc in IH. specialize (IH E). unfold first_solid in *. cbn [find] in *. unfold ek in *. fold (solid x).
      destruct (solid x) eqn:S; [reflexivity|]. rewrite <- IH. pose proof entries_steady as St. rewrite E in St. apply steady_app in St as (_ & St & _).
      destruct St as [St _]. now apply St.
  Qed.
  Definition note_at (ls : list (entry * nat)) (n : nat) : note :=
    match option_map fst (find (fun p => Nat.leb (snd p) n) ls) with Some y => snd y | None => (0, 0, false) end.
  Lemma line_note a x b : entries = a ++ x :: b -> opens ek a ->
    snd x = note_at (solids ek et entries) (lfs (texts (map (pr ek et) (x :: b)))).
  Proof.
    intros E O. rewrite (note_ahead b x a E). unfold note_at. rewrite E, (line_find ek et a (x :: b) O); [reflexivity|].
    rewrite <- E. unfold entries. rewrite entries_pairs. exact tokens_laid.
  Qed.
End State.

(** * Templates that differ in the white space at the start of lines *)
Lemma same_lines_interpolation s s' : same_lines s s' -> no_interpolation s -> no_interpolation s'.
Proof.
  intros H N pre a b post E [Ka Kb]. destruct (LexLayout.same_lines_tokens s s' H) as (g & g' & r & r' & El & El' & G & G' & _ & _ & SB).
  assert (B : forall g, Forall Layout.blank g -> nontriv g = []).
  { induction 1 as [|x l [X _] _ IH]; [reflexivity|]. cbn [nontriv filter]. rewrite X. exact IH. }
  unfold no_interpolation in N. rewrite El in N. rewrite El' in E. unfold nontriv in E, N. rewrite filter_app in E, N. fold (nontriv g') in E. fold (nontriv g) in N.
  rewrite (B g' G') in E. rewrite (B g G) in N. cbn [app] in E, N. fold (nontriv r') in E. fold (nontriv r) in N.
  pose proof (LayoutSim.sb_nontriv _ _ SB) as F. rewrite E in F. apply Forall2_app_inv_r in F as (p & q & _ & F2 & Er).
  inversion F2 as [|a0 ? q1 ? [Sa _] F3]; subst. inversion F3 as [|b0 ? q2 ? [Sb _] _]; subst.
  apply (N _ _ _ _ Er). split; congruence.
Qed.
Lemma bare_elsewhere t t' : bare t = bare t' -> directives_elsewhere t -> directives_elsewhere t'.
Proof.
  intros E D cs S. destruct (PropIndent.bare_subtree _ _ _ S) as (b & Hb & Sb). rewrite <- E in Hb.
  destruct (PropIndent.bare_subtree_back _ _ _ _ Hb Sb) as (cs' & Ec & S'). rewrite <- (PropIndent.bare_rules _ cs), Ec, PropIndent.bare_rules. exact (D _ S').
Qed.
Lemma same_solids dbg src t new t' cf :
  parse_src dbg src = OK (t, []) -> directives_elsewhere t -> no_interpolation src ->
  parse_src dbg new = OK (t', []) -> directives_elsewhere t' -> no_interpolation new ->
  same_lines src new -> bare t = bare t' ->
  solids ek et (entries t cf) = solids ek et (entries t' cf).
Proof.
  intros P ND NI P' ND' NI' SL B. apply solids_same.
  - unfold entries. rewrite entries_pairs. eapply tokens_laid, P.
  - unfold entries. rewrite entries_pairs. eapply tokens_laid, P'.
  - rewrite (entries_notes dbg src), (entries_notes dbg new) by assumption.
    destruct (placed dbg src t P NI) as (cs & -> & _). destruct (placed dbg new t' P' NI') as (cs' & -> & _). now apply same_bare_notes.
  - unfold entries. rewrite !entries_pairs, !tokens_pairs, (leaves_marks _ _ _ _ P), (leaves_marks _ _ _ _ P'). now apply same_lines_marks.
Qed.

(** * The suggestions of a run *)
Definition trip (s : suggestion) : nat * nat * text := (sg_start s, sg_end s, sg_text s).
Definition of_name (n : text) (p : text * suggestion) : bool := text_eqb (fst p) n.
Lemma exactly_edits {A} results name (Q : A -> Prop) D (ed : A -> nat * nat * text) : exactly results name Q D -> (forall x s, D x s -> sh_edits s = [ed x]) ->
  exists xs, NoDup xs /\ (forall x, In x xs <-> Q x) /\ map (fun p => trip (snd p)) (filter (of_name name) (rule_suggestions results)) = map ed xs.
Proof.
  intros (xs & X1 & X2 & X3) E. exists xs. split; [exact X1|]. split; [exact X2|]. clear X1 X2.
  assert (F : filter (of_name name) (rule_suggestions results) = rule_suggestions (filter (fun r => text_eqb (rs_rule r) name) results)).
  { clear. induction results as [|r rs IH]; [reflexivity|]. unfold rule_suggestions in *. cbn [flat_map filter]. rewrite filter_app, IH.
    assert (G : filter (of_name name) (map (fun s => (rs_rule r, s)) (rs_suggestions r)) = if text_eqb (rs_rule r) name then map (fun s => (rs_rule r, s)) (rs_suggestions r) else []).
    { induction (rs_suggestions r) as [|s l IHl]; [now destruct (text_eqb _ _)|]. cbn [map filter]. rewrite IHl. unfold of_name. cbn [fst]. now destruct (text_eqb (rs_rule r) name). }
    rewrite G. destruct (text_eqb (rs_rule r) name); reflexivity. }
  rewrite F. clear F. induction X3 as [|r x l xs H _ IH]; [reflexivity|]. unfold rule_suggestions in *. cbn [flat_map map]. rewrite map_app, IH.
  apply E in H. unfold show in H. cbn [sh_edits] in H. rewrite map_map. cbn [snd]. change (fun x0 : suggestion => trip x0) with (fun s => (sg_start s, sg_end s, sg_text s)). now rewrite H.
Qed.

Lemma names_differ : indentation_name <> empty_lines_name.
Proof. discriminate. Qed.
Lemma layout_known rules : incl rules PropIndent.layout_rules -> incl rules RULE_DEFINITIONS.
Proof. intros I r Hr. destruct (I r Hr) as [<-|[<-|[]]]; cbn [In RULE_DEFINITIONS]; tauto. Qed.

Section Suggestions.
  Context (dbg : bool) (src : text) (t : tree) (cf : config) (rules : list rule) (rs : list result).
  Hypothesis P : parse_src dbg src = OK (t, []).
  Hypothesis ND : directives_elsewhere t.
  Hypothesis I : incl rules PropIndent.layout_rules.
  Hypothesis N : NoDup (map rl_name rules).
  Hypothesis R : run_rules cf rules t = Done rs.

  Lemma two_parts : exists i w, rule_suggestions rs = i ++ w /\ Forall (fun p => fst p = indentation_name) i /\ Forall (fun p => fst p = empty_lines_name) w.
  Proof.
    pose proof (parsed_file _ _ _ P) as Pf. pose proof (elsewhere_names t ND) as D.
    destruct rules as [|r0 rules'] eqn:Er; [injection R as <-; exists [], []; repeat split; constructor|]. rewrite <- Er in *.
    destruct (C15_ignore_directives_have_exact_scope _ _ _ _ R) as (roots & flag & A & ->); [rewrite Er; discriminate|].
    destruct (PropIndent.indentation_results_fine dbg src t cf Pf D) as (F1 & _ & _). rewrite PropIndent.suggested_app. eexists _, _. split; [reflexivity|]. split.
    - apply PropIndent.suggested_fst. apply PropIndent.roots_incl in A; [|exact I]. apply Forall_forall. intros r Hr. rewrite Forall_forall in F1. apply F1, A, Hr.
    - apply PropIndent.suggested_fst. apply Forall_forall. intros r Hr.
      apply in_flat_map in Hr as (e & He & Hr). apply filter_In in He as [He _].
      pose proof (PropIndent.checked_fine dbg src t cf Pf rules (flag e) e I He) as F. rewrite Forall_forall in F. apply (F r Hr).
  Qed.
  Lemma only_of rl p : In rl PropIndent.layout_rules -> In p (rule_suggestions rs) -> fst p = rl_name rl -> In rl rules.
  Proof.
    intros Il Hp E. apply in_flat_map in Hp as (r & Hr & Hp). apply in_map_iff in Hp as (s & <- & _). cbn [fst] in E.
    destruct (C52_reports_name_their_rule cf rules t rs (layout_known _ I) R) as [Q _]. destruct (Q r Hr) as (rl' & H1 & H2).
    assert (rl' = rl) as <-; [|exact H1]. rewrite E in H2. destruct Il as [<-|[<-|[]]]; destruct (I rl' H1) as [<-|[<-|[]]]; try reflexivity; discriminate H2.
  Qed.
  Definition line_out (x : elem) : Prop := first_in_line (tokens t) x /\ indent_protected x = false /\ out_of_line cf x.
  Definition line_edit (x : elem) : nat * nat * text := (el_start x, el_start x + blen (leading x), wanted cf x).
  Lemma indentation_edits : exists xs, NoDup xs /\ (forall x, In x xs <-> In rule_indentation rules /\ line_out x) /\
    map (fun p => trip (snd p)) (filter (of_name indentation_name) (rule_suggestions rs)) = map line_edit xs.
  Proof.
    destruct (in_dec (fun a b : text => list_eq_dec N.eq_dec a b) indentation_name (map rl_name rules)) as [X|X].
    - assert (Y : In rule_indentation rules).
      { apply in_map_iff in X as (r & E & Hr). destruct (I r Hr) as [<-|[<-|[]]]; [exact Hr|discriminate E]. }
      destruct (exactly_edits _ _ _ _ line_edit (C63_indentation_is_reported_exactly dbg src t [] cf rules rs P (layout_known _ I) N Y R)) as (xs & X1 & X2 & X3).
      { intros x s ->. reflexivity. }
      exists xs. split; [exact X1|]. split; [|exact X3]. intros x. rewrite X2, (walked_all dbg src t P ND), protected_iff, not_true_iff_false. fold (tokens t). unfold line_out.
      split; [tauto|]. intros (_ & H1 & H2 & H3). split; [exact H1|]. split; [|auto]. apply (none_kept t ND); [now left|]. destruct H1 as (a & b & E & _).
      apply (proj1 (in_tokens t x)). fold (tokens t). rewrite E. apply in_elt.
    - exists []. split; [constructor|]. split.
      + intros x. split; [intros []|]. intros [Y _]. apply X. apply (in_map rl_name) in Y. exact Y.
      + assert (E : forall l, incl l (rule_suggestions rs) -> filter (of_name indentation_name) l = []); [|now rewrite E by apply incl_refl].
        induction l as [|p l IH]; intros Il; [reflexivity|]. cbn [filter]. rewrite IH by (intros z Hz; apply Il; now right). destruct (of_name indentation_name p) eqn:E; [|reflexivity].
        exfalso. apply X. unfold of_name in E. apply text_eqb_eq in E. change indentation_name with (rl_name rule_indentation). apply in_map.
        apply (only_of rule_indentation p); [now left|apply Il; now left|exact E].
  Qed.
  Definition gone (p : nat * nat) : nat * nat * text := (p, []).
  Lemma empty_line_edits : exists ps, NoDup ps /\ (forall p, In p ps <-> In rule_whitespace_between_line_breaks rules /\ blank_line src p) /\
    map (fun p => trip (snd p)) (filter (of_name empty_lines_name) (rule_suggestions rs)) = map gone ps.
  Proof.
    destruct (in_dec (fun a b : text => list_eq_dec N.eq_dec a b) empty_lines_name (map rl_name rules)) as [X|X].
    - assert (Y : In rule_whitespace_between_line_breaks rules).
      { apply in_map_iff in X as (r & E & Hr). destruct (I r Hr) as [<-|[<-|[]]]; [discriminate E|exact Hr]. }
      destruct (exactly_edits _ _ _ _ gone (C63_blank_lines_are_reported_exactly dbg src t [] cf rules rs P (layout_known _ I) N Y R)) as (xs & X1 & X2 & X3).
      { intros x s ->. destruct x. reflexivity. }
      exists xs. split; [exact X1|]. split; [|exact X3]. intros p. rewrite X2. split; [tauto|]. intros (_ & B). split; [exact B|].
      destruct (blank_line_next dbg src t [] p P B) as (x & _ & _ & Te & _). exists x. split; [exact Te|]. apply (all_visible dbg src t P ND); [now right|apply Te].
    - exists []. split; [constructor|]. split.
      + intros x. split; [intros []|]. intros [Y _]. apply X. apply (in_map rl_name) in Y. exact Y.
      + assert (E : forall l, incl l (rule_suggestions rs) -> filter (of_name empty_lines_name) l = []); [|now rewrite E by apply incl_refl].
        induction l as [|p l IH]; intros Il; [reflexivity|]. cbn [filter]. rewrite IH by (intros z Hz; apply Il; now right). destruct (of_name empty_lines_name p) eqn:E; [|reflexivity].
        exfalso. apply X. unfold of_name in E. apply text_eqb_eq in E. change empty_lines_name with (rl_name rule_whitespace_between_line_breaks). apply in_map.
        apply (only_of rule_whitespace_between_line_breaks p); [right; now left|apply Il; now left|exact E].
  Qed.
End Suggestions.

(** * Which suggestions are chosen *)
Lemma nodup_pairwise {A B} (f : A -> B) : forall l, NoDup (map f l) -> pairwise (fun a b => f a <> f b) l.
Proof.
  induction l as [|x l IH]; intros H; [exact I|]. cbn [map] in H. inversion H as [|? ? H1 H2]; subst. split; [|auto].
  apply Forall_forall. intros y Hy E. apply H1. rewrite E. now apply in_map.
Qed.
Lemma nodup_map {A B} (f : A -> B) : forall l, NoDup l -> (forall a b, In a l -> In b l -> f a = f b -> a = b) -> NoDup (map f l).
Proof.
  induction 1 as [|x l H1 H2 IH]; intros Q; [constructor|]. cbn [map]. constructor.
  - intros X. apply in_map_iff in X as (y & E & Hy). apply H1. rewrite <- (Q y x); auto; [now right|now left].
  - apply IH. intros a b Ha Hb. apply Q; now right.
Qed.
Lemma pairwise_perm {A} (Q : A -> A -> Prop) : (forall a b, Q a b -> Q b a) -> forall l l', Permutation l l' -> pairwise Q l -> pairwise Q l'.
Proof.
  intros Sy. induction 1 as [|x l l' Pm IH|x y l|l l' l'' Pm1 IH1 Pm2 IH2]; intros PW; auto.
  - destruct PW as [A1 B]. split; [|auto]. apply Forall_forall. intros y Hy. rewrite Forall_forall in A1. apply A1. apply (Permutation_in _ (Permutation_sym Pm)). exact Hy.
  - destruct PW as [A1 [B C]]. inversion A1 as [|? ? A2 A3]; subst. split; [|split; auto]. constructor; auto.
Qed.
Lemma pairwise_both {A} (Q Q' : A -> A -> Prop) : forall l, pairwise Q l -> pairwise Q' l -> pairwise (fun a b => Q a b /\ Q' a b) l.
Proof.
  induction l as [|x l IH]; [auto|]. intros [A1 A2] [B1 B2]. split; [|auto]. rewrite Forall_forall in *. auto.
Qed.

Section Chosen.
  Context (dbg : bool) (src : text) (t : tree) (cf : config) (rules : list rule) (rs : list result).
  Hypothesis P : parse_src dbg src = OK (t, []).
  Hypothesis ND : directives_elsewhere t.
  Hypothesis I : incl rules PropIndent.layout_rules.
  Hypothesis N : NoDup (map rl_name rules).
  Hypothesis R : run_rules cf rules t = Done rs.

  Lemma token_in x : In x (tokens t) -> In x (elements t) /\ is_node (el_tree x) = false /\ el_start x < el_end x.
  Proof. intros H. apply in_tokens in H as [H1 H2]. split; [exact H1|]. split; [exact H2|]. eapply token_nonempty; eauto. Qed.
  Lemma token_at x y : In x (tokens t) -> In y (tokens t) -> el_start x = el_start y -> x = y.
  Proof.
    intros Hx Hy E. destruct (token_in x Hx) as (Ix & Nx & Lx). destruct (token_in y Hy) as (Iy & Ny & Ly).
    destruct (PropIndent.tokens_apart t x y Ix Iy Nx Ny) as [->|[A|A]]; [reflexivity|lia|lia].
  Qed.
  Lemma line_out_token x : line_out t cf x -> In x (tokens t).
  Proof. intros ((a & b & E & _) & _). rewrite E. apply in_elt. Qed.
  Lemma blank_line_token p : blank_line src p -> exists w, In w (tokens t) /\ el_kind w = TK_WHITESPACE /\ p = (el_start w, el_end w).
  Proof.
    intros B. destruct (blank_line_next dbg src t [] p P B) as (x & w & y & (Ix & _) & _ & E1 & K & E & _). exists w. split; [|auto].
    apply in_tokens. split; [eapply within_elements, within_next_token; [apply elements_within, Ix|exact E1]|].
    eapply PropIndent.next_token_adjacent; [apply elements_within, Ix|exact E1].
  Qed.

  (** Suggestions of either rule. *)
  Lemma indentation_sug p : In p (rule_suggestions rs) -> fst p = indentation_name -> exists x, line_out t cf x /\ trip (snd p) = line_edit cf x.
  Proof.
    intros Hp E. destruct (indentation_edits dbg src t cf rules rs P ND I N R) as (xs & _ & X2 & X3).
    assert (H : In (trip (snd p)) (map (line_edit cf) xs)).
    { rewrite <- X3. apply (in_map (fun p => trip (snd p))). apply filter_In. split; [exact Hp|]. now apply text_eqb_eq. }
    apply in_map_iff in H as (x & <- & Hx). apply X2 in Hx as [_ Hx]. eauto.
  Qed.
  Lemma indentation_back x : In rule_indentation rules -> line_out t cf x -> exists p, In p (rule_suggestions rs) /\ fst p = indentation_name /\ trip (snd p) = line_edit cf x.
  Proof.
    intros Hr Hx. destruct (indentation_edits dbg src t cf rules rs P ND I N R) as (xs & _ & X2 & X3).
    assert (H : In (line_edit cf x) (map (line_edit cf) xs)) by (apply in_map, X2; auto). rewrite <- X3 in H. apply in_map_iff in H as (p & E & H).
    apply filter_In in H as [H1 H2]. apply text_eqb_eq in H2. eauto.
  Qed.
  Lemma empty_sug p : In p (rule_suggestions rs) -> fst p = empty_lines_name -> exists q, blank_line src q /\ trip (snd p) = (q, []).
  Proof.
    intros Hp E. destruct (empty_line_edits dbg src t cf rules rs P ND I N R) as (xs & _ & X2 & X3).
    assert (H : In (trip (snd p)) (map gone xs)).
    { rewrite <- X3. apply (in_map (fun p => trip (snd p))). apply filter_In. split; [exact Hp|]. now apply text_eqb_eq. }
    apply in_map_iff in H as (x & <- & Hx). apply X2 in Hx as [_ Hx]. exists x. split; [exact Hx|reflexivity].
  Qed.
  Lemma empty_back q : In rule_whitespace_between_line_breaks rules -> blank_line src q -> exists p, In p (rule_suggestions rs) /\ fst p = empty_lines_name /\ trip (snd p) = (q, []).
  Proof.
    intros Hr Hx. destruct (empty_line_edits dbg src t cf rules rs P ND I N R) as (xs & _ & X2 & X3).
    assert (H : In (gone q) (map gone xs)) by (apply in_map, X2; auto). rewrite <- X3 in H. apply in_map_iff in H as (p & E & H).
    apply filter_In in H as [H1 H2]. apply text_eqb_eq in H2. eauto.
  Qed.
  Lemma either_name p : In p (rule_suggestions rs) -> fst p = indentation_name \/ fst p = empty_lines_name.
  Proof.
    intros Hp. destruct (two_parts dbg src t cf rules rs P ND I N R) as (i & w & E & Fi & Fw). rewrite E in Hp. rewrite Forall_forall in Fi, Fw.
    apply in_app_iff in Hp as [Hp|Hp]; auto.
  Qed.

  Lemma distinct_starts : pairwise (fun a b => fst a = fst b -> sg_start (snd a) <> sg_start (snd b)) (rule_suggestions rs).
  Proof.
    destruct (two_parts dbg src t cf rules rs P ND I N R) as (i & w & E & Fi & Fw).
    assert (Ei : filter (of_name indentation_name) (rule_suggestions rs) = i /\ filter (of_name empty_lines_name) (rule_suggestions rs) = w).
    { rewrite E, !filter_app. clear E. assert (Y : forall n l, Forall (fun p : text * suggestion => fst p = n) l -> filter (of_name n) l = l).
      { induction 1 as [|p l Hp _ IH]; [reflexivity|]. cbn [filter]. unfold of_name at 1. rewrite Hp, IH. now replace (text_eqb n n) with true by (symmetry; now apply text_eqb_eq). }
      assert (Z : forall n m l, n <> m -> Forall (fun p : text * suggestion => fst p = m) l -> filter (of_name n) l = []).
      { intros n m l Nm. induction 1 as [|p l Hp _ IH]; [reflexivity|]. cbn [filter]. unfold of_name at 1. rewrite Hp, IH. destruct (text_eqb m n) eqn:X; [|reflexivity]. apply text_eqb_eq in X. congruence. }
      pose proof names_differ as Nd. rewrite (Y _ i Fi), (Y _ w Fw), (Z _ _ w Nd Fw), (Z _ _ i (fun X => Nd (eq_sym X)) Fi), app_nil_r. auto. }
    destruct Ei as [Ei Ew].
    assert (M : forall l : list (text * suggestion), map (fun p => sg_start (snd p)) l = map (fun x => fst (fst x)) (map (fun p => trip (snd p)) l)).
    { intros l. rewrite map_map. reflexivity. }
    rewrite E. apply PropIndent.pairwise_app.
    - eapply PropIndent.pairwise_impl; [|apply (nodup_pairwise (fun p => sg_start (snd p)))]; [auto|].
      destruct (indentation_edits dbg src t cf rules rs P ND I N R) as (xs & X1 & X2 & X3). rewrite M, <- Ei, X3, map_map. cbn [line_edit fst].
      apply nodup_map; [exact X1|]. intros a b Ha Hb. apply X2 in Ha as [_ Ha]. apply X2 in Hb as [_ Hb]. apply token_at; now apply line_out_token.
    - eapply PropIndent.pairwise_impl; [|apply (nodup_pairwise (fun p => sg_start (snd p)))]; [auto|].
      destruct (empty_line_edits dbg src t cf rules rs P ND I N R) as (xs & X1 & X2 & X3). rewrite M, <- Ew, X3, map_map. cbn [gone fst].
      apply nodup_map; [exact X1|]. intros a b Ha Hb Eab. apply X2 in Ha as [_ Ha]. apply X2 in Hb as [_ Hb].
      destruct (blank_line_token a Ha) as (wa & Ia & _ & ->). destruct (blank_line_token b Hb) as (wb & Ib & _ & ->). cbn [fst] in Eab. now rewrite (token_at wa wb).
    - intros a b Ha Hb X. rewrite Forall_forall in Fi, Fw. apply Fi in Ha. apply Fw in Hb. rewrite Ha, Hb in X. destruct (names_differ X).
  Qed.
  (** Suggestions of both rules in the same place overlap. *)
  Lemma same_place a b : In a (rule_suggestions rs) -> In b (rule_suggestions rs) -> fst a <> fst b -> sg_start (snd a) = sg_start (snd b) -> overlap (snd a) (snd b).
  Proof.
    assert (G : forall a b, In a (rule_suggestions rs) -> In b (rule_suggestions rs) -> fst a = indentation_name -> fst b = empty_lines_name ->
      sg_start (snd a) = sg_start (snd b) -> overlap (snd a) (snd b)).
    { clear a b. intros a b Ha Hb Na Nb E. destruct (indentation_sug a Ha Na) as (x & Hx & Tx). destruct (empty_sug b Hb Nb) as (q & Hq & Tq).
      destruct (blank_line_token q Hq) as (w & Iw & Kw & ->). unfold trip, line_edit in Tx, Tq. injection Tx as X1 X2 X3. injection Tq as Q1 Q2 Q3.
      assert (x = w) as -> by (apply token_at; [now apply line_out_token|exact Iw|congruence]).
      destruct (token_in w Iw) as (_ & _ & L). assert (Lw : leading w = el_text w) by (unfold leading; now rewrite Kw, kind_eqb_refl). rewrite Lw, <- el_end_text in X2.
      unfold overlap. lia. }
    intros Ha Hb Nab E. destruct (either_name a Ha) as [Na|Na], (either_name b Hb) as [Nb|Nb]; try congruence; [now apply G|]. apply overlap_sym. now apply G.
  Qed.

  Context (sort : list (text * suggestion) -> out (list (text * suggestion))) (sorted : list (text * suggestion)) (chosen : list suggestion).
  Hypothesis So : sorts sort.
  Hypothesis St : stable sort.
  Hypothesis E : sort (rule_suggestions rs) = Done sorted.
  Hypothesis Sel : select_suggestions sorted = inr chosen.

  Lemma chosen_from s : In s chosen -> exists p, In p (rule_suggestions rs) /\ snd p = s.
  Proof.
    intros H. destruct (PropIndent.chosen_incl _ _ Sel s H) as (p & Hp & <-). exists p. split; [|reflexivity].
    apply (Permutation_in _ (Permutation_sym (proj1 (So _ _ E)))). exact Hp.
  Qed.
  Lemma good_order : grouped (rule_suggestions rs) /\ proper (rule_suggestions rs).
  Proof.
    apply (PropIndent.fine_grouped src t). eapply PropIndent.run_fine; eauto; [apply (parsed_file _ _ _ P)|now apply elsewhere_names].
  Qed.
  Lemma chosen_apart : in_order chosen /\ by_start chosen.
  Proof.
    destruct good_order as [G Pr]. destruct (So _ _ E) as [Pm Sd]. specialize (Sd G Pr).
    pose proof (C21_no_overlapping_edits_partial _ _ _ _ So E Sel G Pr) as NO.
    assert (O : in_order chosen).
    { assert (PW : pairwise (fun a b => ordering a b <> Gt) chosen).
      { unfold select_suggestions in Sel. destruct (overlapping_rules sorted); [discriminate|]. injection Sel as <-.
        apply pairwise_map_filter. eapply PropIndent.pairwise_impl; [|exact Sd]. intros a b H _ . exact H. }
      clear -NO PW. induction chosen as [|x l IH]; [constructor|]. destruct NO as [N1 N2], PW as [W1 W2]. constructor; [|auto].
      apply Forall_forall. intros y Hy. rewrite Forall_forall in N1, W1. specialize (N1 y Hy). specialize (W1 y Hy).
      apply ordering_lt. destruct (ordering x y) eqn:Q; [|reflexivity|contradiction]. apply ordering_eq in Q. contradiction. }
    split; [exact O|].
    assert (DS : pairwise (fun a b => ~ overlap (snd a) (snd b) -> sg_start (snd a) <> sg_start (snd b)) sorted).
    { eapply pairwise_perm; [|exact Pm|].
      - intros a b H X Y. apply H; [intros Z; apply X, overlap_sym, Z|now symmetry].
      - assert (D2 : pairwise (fun a b => In a (rule_suggestions rs) /\ In b (rule_suggestions rs)) (rule_suggestions rs)).
        { apply pairwise_pairs. intros m1 x m2 y m3 ->. split; [apply in_elt|]. apply in_or_app. right. right. apply in_elt. }
        eapply PropIndent.pairwise_impl; [|apply pairwise_both; [exact distinct_starts|exact D2]]. cbn beta. intros a b [H [Ha Hb]] X Y.
        assert (D : {fst a = fst b} + {fst a <> fst b}) by (apply list_eq_dec, N.eq_dec). destruct D as [D|D]; [exact (H D Y)|]. apply X. now apply same_place. }
    assert (DC : pairwise (fun a b => ~ overlap a b -> sg_start a <> sg_start b) chosen).
    { unfold select_suggestions in Sel. destruct (overlapping_rules sorted); [discriminate|]. injection Sel as <-.
      apply pairwise_map_filter. eapply PropIndent.pairwise_impl; [|exact DS]. intros a b H _ . exact H. }
    assert (PC : Forall (fun s => sg_start s <= sg_end s) chosen).
    { apply Forall_forall. intros s Hs. destruct (chosen_from s Hs) as (p & Hp & <-). now apply Pr. }
    clear - NO DC O PC. unfold by_start. induction chosen as [|x l IH]; [exact Logic.I|]. destruct NO as [N1 N2], DC as [D1 D2]. inversion O as [|? ? O1 O2]; subst. inversion PC; subst.
    split; [|auto]. rewrite Forall_forall in *. intros y Hy. specialize (N1 y Hy). specialize (D1 y Hy N1). specialize (O1 y Hy). lia.
  Qed.
  Lemma indentation_chosen p : In p (rule_suggestions rs) -> fst p = indentation_name -> In (snd p) chosen.
  Proof.
    intros Hp Np. destruct good_order as [G Pr]. unfold select_suggestions in Sel. destruct (overlapping_rules sorted) as [|names] eqn:O; [discriminate|]. injection Sel as <-.
    apply in_map. apply filter_In. split; [apply (Permutation_in _ (proj1 (So _ _ E))); exact Hp|]. apply negb_true_iff.
    destruct (two_parts dbg src t cf rules rs P ND I N R) as (i & w & El & Fi & Fw).
    pose proof (first_rule_stays sort _ sorted names _ _ i w St So E G Pr El Fi Fw names_differ O) as Q. rewrite Np.
    destruct (mem_text indentation_name names) eqn:M; [|reflexivity]. exfalso. apply Q. apply existsb_exists in M as (y & Hy & Ey). apply text_eqb_eq in Ey. now subst y.
  Qed.
  Lemma all_chosen : (forall p, In p (rule_suggestions rs) -> fst p <> indentation_name) -> forall p, In p (rule_suggestions rs) -> In (snd p) chosen.
  Proof.
    intros None p Hp. unfold select_suggestions in Sel. destruct (overlapping_rules sorted) as [|names] eqn:O; [discriminate|]. injection Sel as <-.
    assert (Em : names = []).
    { destruct names as [|n names]; [reflexivity|]. exfalso. destruct (left_out _ _ n O (or_introl eq_refl)) as (m1 & a & b & m2 & Es & _ & Eb & Ea).
      assert (S : forall x, In x sorted -> fst x = empty_lines_name).
      { intros x Hx. apply (Permutation_in _ (Permutation_sym (proj1 (So _ _ E)))) in Hx. destruct (either_name x Hx) as [Y|Y]; [destruct (None x Hx Y)|exact Y]. }
      apply Ea. rewrite <- Eb, !S; [reflexivity| |]; rewrite Es; apply in_or_app; right; [right; now left|now left]. }
    subst names. apply in_map. apply filter_In. split; [apply (Permutation_in _ (proj1 (So _ _ E))); exact Hp|reflexivity].
  Qed.
End Chosen.

(** * What is left after a round *)
Lemma blank_prefix : forall c, exists w rest, c = w ++ rest /\ blanky w /\ unblank rest.
Proof.
  induction c as [|x c (w & rest & E & B & U)]; [exists [], []; repeat split; constructor|]. destruct (LexLayout.blankc x) eqn:X.
  - exists (x :: w), rest. cbn [app]. rewrite <- E. split; [reflexivity|]. split; [constructor; assumption|exact U].
  - exists [], (x :: c). split; [reflexivity|]. split; [constructor|exact X].
Qed.
Lemma same_first_unblank r r' : same_first r r' -> unblank r -> unblank r'.
Proof.
  intros (l & _ & [[-> ->]|(v & v' & -> & ->)]) U; [exact U|]. destruct l as [|c l]; [reflexivity|exact U].
Qed.
Lemma same_first_blanks : forall w rest c', blanky w -> same_first (w ++ rest) c' -> exists rest', c' = w ++ rest' /\ same_first rest rest'.
Proof.
  induction w as [|x w IH]; intros rest c' B S; [exists c'; auto|]. inversion B as [|? ? B1 B2]; subst. destruct S as (l & N & C). destruct l as [|y l].
  - exfalso. cbn [app] in C. destruct C as [[C _]|(v & v' & C & _)]; [discriminate C|]. injection C as -> _. discriminate B1.
  - assert (Q : exists c2, c' = x :: c2 /\ same_first (w ++ rest) c2).
    { assert (Nl : ~ In 10%N l) by (intros Z; apply N; now right). cbn [app] in C. destruct C as [[C1 C2]|(v & v' & C1 & C2)]; injection C1 as -> C1.
      - exists l. split; [exact C2|]. exists l. auto.
      - exists (l ++ 10%N :: v'). split; [exact C2|]. exists l. split; [exact Nl|]. right. exists v, v'. auto. }
    destruct Q as (c2 & -> & Q). destruct (IH rest c2 B2 Q) as (rest' & -> & Q'). exists rest'. auto.
Qed.
Lemma opens_start dbg src t a b : parse_src dbg src = OK (t, []) -> tokens t = a ++ b -> opens el_kind a -> PropIndent.line_start (texts (map (pr el_kind el_text) a)).
Proof.
  intros P E [->|(a' & y & -> & K)]; [now left|]. right. pose proof (tokens_laid _ _ _ P) as L. rewrite E, <- app_assoc, map_app in L.
  destruct (L (map (pr el_kind el_text) a') (el_kind y) (el_text y) (map (pr el_kind el_text) b) eq_refl) as (_ & _ & Y & _). destruct (Y K) as (bl & Nb & Eb).
  destruct (PropIndent.breaks_end bl Nb) as (z & Ez). rewrite map_app, texts_app. cbn [map]. unfold texts at 2. cbn [map snd pr List.concat]. rewrite app_nil_r, Eb, Ez, app_assoc. eauto.
Qed.
Lemma start_token dbg src t a x b : parse_src dbg src = OK (t, []) -> tokens t = a ++ x :: b -> el_start x = blen (texts (map (pr el_kind el_text) a)).
Proof.
  intros P E. pose proof (tokens_tiled _ _ _ (PropIndent.elements_tiled t)) as T. fold (tokens t) in T. pose proof (tokens_nodes t) as TN. fold (tokens t) in TN. rewrite E in T, TN.
  apply Forall_app in TN as [T1 T2]. inversion T2 as [|? ? Nx _]; subst. apply PropIndent.tiled_split in T as [T _]; [|exact Nx]. apply tiled_text in T; [|exact T1].
  rewrite T. unfold texts. rewrite map_map. reflexivity.
Qed.
Lemma not_break dbg src t a x b : parse_src dbg src = OK (t, []) -> tokens t = a ++ x :: b -> el_kind x <> TK_LINE_BREAK -> ~ brk (texts (map (pr el_kind el_text) (x :: b))).
Proof.
  intros P E K B. pose proof (tokens_laid _ _ _ P) as L. rewrite E in L. destruct B as (nl & rest & Hn & Eb).
  destruct (line_blanks el_kind el_text a x b L K [] (nl ++ rest)) as [_ Q]; [exact Eb|constructor| |].
  - destruct Hn as [-> | ->]; reflexivity.
  - destruct Q; [exists nl, rest; auto|reflexivity].
Qed.
Lemma break_brk dbg src t a x b : parse_src dbg src = OK (t, []) -> tokens t = a ++ x :: b -> el_kind x = TK_LINE_BREAK -> brk (texts (map (pr el_kind el_text) (x :: b))).
Proof.
  intros P E K. pose proof (tokens_laid _ _ _ P) as L. rewrite E, map_app in L.
  destruct (L (map (pr el_kind el_text) a) (el_kind x) (el_text x) (map (pr el_kind el_text) b) eq_refl) as (_ & _ & Y & _). destruct (Y K) as (bl & Nb & Eb).
  cbn [map]. rewrite texts_cons. cbn [pr snd]. rewrite Eb. destruct bl as [|[] bl]; [contradiction| |]; unfold PropLines.breaks; cbn [flat_map]; rewrite <- app_assoc; eexists _, _; (split; [|reflexivity]); auto.
Qed.
Lemma leading_is dbg src t a x b w rest : parse_src dbg src = OK (t, []) -> tokens t = a ++ x :: b -> el_kind x <> TK_LINE_BREAK ->
  texts (map (pr el_kind el_text) (x :: b)) = w ++ rest -> blanky w -> unblank rest -> leading x = w.
Proof.
  intros P E K T B U. pose proof (tokens_laid _ _ _ P) as L. rewrite E in L. exact (proj1 (line_blanks el_kind el_text a x b L K w rest T B U)).
Qed.

Section Round.
  Context (dbg : bool) (src new : text) (t t' : tree) (cf : config) (rules : list rule) (rs rs' : list result).
  Hypothesis P : parse_src dbg src = OK (t, []).
  Hypothesis ND : directives_elsewhere t.
  Hypothesis NI : no_interpolation src.
  Hypothesis P' : parse_src dbg new = OK (t', []).
  Hypothesis ND' : directives_elsewhere t'.
  Hypothesis NI' : no_interpolation new.
  Hypothesis SL : same_lines src new.
  Hypothesis Ba : bare t = bare t'.
  Hypothesis I : incl rules PropIndent.layout_rules.
  Hypothesis N : NoDup (map rl_name rules).
  Hypothesis R : run_rules cf rules t = Done rs.
  Hypothesis R' : run_rules cf rules t' = Done rs'.
  Context (chosen : list suggestion).
  Hypothesis Ed : edited 0 src chosen new.
  Hypothesis Ind : Forall (PropIndent.indent_edit src) chosen.
  Hypothesis BS : by_start chosen.
  Hypothesis From : forall s, In s chosen -> exists p, In p (rule_suggestions rs) /\ snd p = s.

  Lemma same_note l1 x l2 a b x' : tokens t = l1 ++ x :: l2 -> opens el_kind l1 -> tokens t' = a ++ x' :: b -> opens el_kind a ->
    lfs (texts (map (pr el_kind el_text) (x :: l2))) = lfs (texts (map (pr el_kind el_text) (x' :: b))) ->
    wanted cf x = wanted cf x' /\ depth cf x = depth cf x' /\ indent_protected x = indent_protected x'.
  Proof.
    intros E O E' O' L. assert (Tr : forall l, opens el_kind l -> opens ek (map (entry_of cf) l)).
    { intros l [->|(l0 & y & -> & K)]; [now left|right]. exists (map (entry_of cf) l0), (entry_of cf y). split; [apply map_app|exact K]. }
    assert (Q : info cf x = info cf x').
    { change (snd (entry_of cf x) = snd (entry_of cf x')).
      rewrite (line_note dbg src t cf P ND NI (map (entry_of cf) l1) (entry_of cf x) (map (entry_of cf) l2)) by (auto; unfold entries; rewrite E, map_app; reflexivity).
      rewrite (line_note dbg new t' cf P' ND' NI' (map (entry_of cf) a) (entry_of cf x') (map (entry_of cf) b)) by (auto; unfold entries; rewrite E', map_app; reflexivity).
      rewrite (same_solids dbg src t new t' cf) by assumption.
      change (entry_of cf x :: map (entry_of cf) l2) with (map (entry_of cf) (x :: l2)). change (entry_of cf x' :: map (entry_of cf) b) with (map (entry_of cf) (x' :: b)).
      rewrite !entries_pairs. now rewrite L. }
    rewrite (info_token dbg src t cf P), (info_token dbg new t' cf P') in Q.
    - injection Q as Q1 Q2 Q3. unfold wanted. rewrite Q1, Q2. auto.
    - fold (tokens t'). rewrite E'. apply in_elt.
    - fold (tokens t). rewrite E. apply in_elt.
  Qed.

  Lemma no_indentation_left : 0 < cf_indentation_count cf ->
    (forall p, In p (rule_suggestions rs) -> fst p = indentation_name -> In (snd p) chosen) ->
    forall p, In p (rule_suggestions rs') -> fst p <> indentation_name.
  Proof.
    intros Cnt IC p Hp Np.
    assert (Ir : In rule_indentation rules) by (apply (only_of t' cf rules rs' I R' rule_indentation p); [now left|exact Hp|exact Np]).
    destruct (indentation_sug dbg new t' cf rules rs' P' ND' I N R' p Hp Np) as (x' & ((a' & b' & E' & Kx' & O') & Pr' & Out') & _).
    assert (Oa : opens el_kind a') by exact O'. set (c' := texts (map (pr el_kind el_text) (x' :: b'))).
    assert (Tn : new = texts (map (pr el_kind el_text) a') ++ c') by (rewrite <- (tokens_texts dbg new t' P'), E', map_app, texts_app; reflexivity).
    pose proof (not_break dbg new t' a' x' b' P' E' Kx') as NB. fold c' in NB.
    destruct (edit_effect chosen [] src new Ed Ind BS _ _ Tn (opens_start dbg new t' a' (x' :: b') P' E' Oa)) as (a & c & Es & LS & Lf & C). cbn [app] in *.
    destruct C as [[SF NoEd]|(s & old & r & r' & Hs & Ss & Se & Ec & Ec' & SF)].
    - (* nothing was changed here *)
      destruct (line_tokens el_kind el_text (tokens t) a c (tokens_laid _ _ _ P)) as [(l1 & l2 & El & T1 & T2 & O1)|Br]; [rewrite (tokens_texts _ _ _ P); exact Es|exact LS| |].
      2: { apply NB. eapply same_first_brk; eauto. }
      destruct l2 as [|x l2].
      { unfold texts in T2. cbn [map List.concat] in T2. subst c. destruct SF as (l & _ & [[<- Ec']|(v & v' & X & _)]); [|destruct l; discriminate X].
        assert (In x' (tokens t')) as Hx by (rewrite E'; apply in_elt). destruct (token_in dbg new t' P' x' Hx) as (_ & _ & Lx). rewrite el_end_text in Lx.
        unfold c' in Ec'. cbn [map] in Ec'. rewrite texts_cons in Ec'. cbn [pr snd] in Ec'. apply app_eq_nil in Ec' as [Ec' _]. rewrite Ec' in Lx. cbn [blen] in Lx. lia. }
      assert (Kx : el_kind x <> TK_LINE_BREAK).
      { intros K. apply NB. eapply same_first_brk; [exact SF|]. rewrite <- T2. exact (break_brk dbg src t l1 x l2 P El K). }
      destruct (blank_prefix c) as (w & rest & Ew & Bw & Ur). rewrite Ew in SF. destruct (same_first_blanks w rest c' Bw SF) as (rest' & Ew' & SF').
      assert (Lx : leading x = w) by (eapply (leading_is dbg src t l1 x l2 w rest); eauto; rewrite T2; exact Ew).
      assert (Lx' : leading x' = w) by (eapply (leading_is dbg new t' a' x' b' w rest'); eauto; eapply same_first_unblank; eauto).
      destruct (same_note l1 x l2 a' b' x' El O1 E' Oa) as (Wt & Dp & Pr); [fold c'; rewrite T2; exact Lf|].
      assert (LO : line_out t cf x).
      { split; [exists l1, l2; auto|]. split; [congruence|]. unfold out_of_line in *. rewrite Lx, Wt, Dp. rewrite Lx' in Out'. exact Out'. }
      destruct (indentation_back dbg src t cf rules rs P ND I N R x Ir LO) as (q & Hq & Nq & Tq).
      rewrite Forall_forall in NoEd. apply (NoEd _ (IC q Hq Nq)). unfold trip, line_edit in Tq. injection Tq as Tq _ _. rewrite Tq, (start_token dbg src t l1 x l2 P El), T1. reflexivity.
    - destruct (From s Hs) as (q & Hq & <-). destruct (either_name dbg src t cf rules rs P ND I N R q Hq) as [Nq|Nq].
      + (* the indentation was replaced *)
        destruct (indentation_sug dbg src t cf rules rs P ND I N R q Hq Nq) as (x & ((l1 & l2 & El & Kx & O1) & Pr & Out) & Tq).
        unfold trip, line_edit in Tq. injection Tq as Q1 Q2 Q3.
        assert (Ol : opens el_kind l1) by exact O1.
        assert (Tt : a ++ c = texts (map (pr el_kind el_text) l1) ++ texts (map (pr el_kind el_text) (x :: l2))).
        { rewrite <- Es, <- (tokens_texts dbg src t P), El, map_app, texts_app. reflexivity. }
        apply PropIndent.blen_inj in Tt as [Ta Tc]; [|rewrite <- (start_token dbg src t l1 x l2 P El); lia].
        destruct (blank_prefix c) as (w & rest & Ew & Bw & Ur).
        assert (Lx : leading x = w) by (eapply (leading_is dbg src t l1 x l2 w rest); eauto; rewrite <- Tc; exact Ew).
        rewrite Ec in Ew. apply PropIndent.blen_inj in Ew as [-> ->]; [|rewrite <- Lx; lia].
        assert (Lx' : leading x' = wanted cf x).
        { eapply (leading_is dbg new t' a' x' b' (wanted cf x) r'); eauto; [fold c'; rewrite Ec', Q3; reflexivity| |eapply same_first_unblank; eauto].
          unfold wanted. apply Forall_app. split; apply PropIndent.blanks_repeat; [destruct (cf_indentation_mode cf); reflexivity|reflexivity]. }
        destruct (same_note l1 x l2 a' b' x' El Ol E' Oa) as (Wt & Dp & _); [fold c'; rewrite <- Tc; exact Lf|].
        destruct Out' as [X|(X & _)]; [apply X; congruence|lia].
      + (* an empty line was cleared *)
        destruct (empty_sug dbg src t cf rules rs P ND I N R q Hq Nq) as ((q1 & q2) & (pre & w & nl & post & Eb & Nw & Sw & Hn & Eq) & Tq). injection Eq as -> ->.
        unfold trip in Tq. injection Tq as Q1 Q2 Q3. change LexLines.LF with 10%N in *. change LexLines.CR with 13%N in *. rewrite Q3 in Ec'. cbn [app] in Ec'. apply NB. rewrite Ec'. eapply same_first_brk; [exact SF|].
        assert (Tt : a ++ old ++ r = (pre ++ [10%N]) ++ w ++ nl ++ post). { rewrite <- Ec, <- Es, Eb, <- app_assoc. reflexivity. }
        apply PropIndent.blen_inj in Tt as [_ Tt]; [|rewrite <- Q1; lia]. rewrite blen_app in Q1, Q2. cbn [blen] in Q1, Q2. apply PropIndent.blen_inj in Tt as [_ ->]; [|lia]. exists nl, post. auto.
  Qed.

  Lemma no_blank_line_left : (forall p, In p (rule_suggestions rs) -> fst p <> indentation_name) -> (forall p, In p (rule_suggestions rs) -> In (snd p) chosen) ->
    forall p, In p (rule_suggestions rs') -> fst p <> empty_lines_name.
  Proof.
    intros None All p Hp Np.
    assert (Ir : In rule_whitespace_between_line_breaks rules) by (apply (only_of t' cf rules rs' I R' rule_whitespace_between_line_breaks p); [right; now left|exact Hp|exact Np]).
    destruct (empty_sug dbg new t' cf rules rs' P' ND' I N R' p Hp Np) as (q' & (pre & w & nl & post & En & Nw & Sw & Hn & _) & _).
    assert (Tn : new = (pre ++ [10%N]) ++ (w ++ nl ++ post)) by (rewrite En, <- app_assoc; reflexivity).
    destruct (edit_effect chosen [] src new Ed Ind BS _ _ Tn) as (a & c & Es & LS & Lf & C); [right; exists pre; reflexivity|]. cbn [app] in *.
    assert (Bw : blanky w).
    { eapply Forall_impl; [|exact Sw]. cbn beta. intros z Hz. unfold LexLayout.blankc. destruct Hz as [-> | ->]; reflexivity. }
    assert (Bn : forall x, brk (nl ++ x)) by (intros x; exists nl, x; auto).
    destruct C as [[SF NoEd]|(s & old & r & r' & Hs & Ss & Se & Ec & Ec' & SF)].
    - assert (SF2 : same_first (w ++ nl ++ post) c).
      { destruct SF as (l & Nl & C). exists l. split; [exact Nl|]. destruct C as [[C1 C2]|(v & v' & C1 & C2)]; [left; auto|right; exists v', v; auto]. }
      destruct (same_first_blanks w (nl ++ post) c Bw SF2) as (rest & -> & SF3).
      destruct (same_first_brk _ _ SF3 (Bn post)) as (nl2 & post2 & Hn2 & ->).
      assert (Ea : exists a0, a = a0 ++ [10%N]).
      { destruct LS as [->|LS]; [|exact LS]. exfalso. pose proof (same_lines_lfs _ _ SL) as Q. rewrite Es, Tn, lfs_app, Lf in Q. cbn [app] in Q. rewrite !lfs_app in Q. cbn [lfs] in Q.
        change (N.eqb 10%N 10) with true in Q. cbn in Q. lia. }
      destruct Ea as (a0 & ->).
      assert (BL : blank_line src (blen (a0 ++ [10%N]), blen (a0 ++ [10%N] ++ w))).
      { exists a0, w, nl2, post2. rewrite Es, <- !app_assoc. auto 8. }
      destruct (empty_back dbg src t cf rules rs P ND I N R _ Ir BL) as (q & Hq & Nq & Tq). rewrite Forall_forall in NoEd. apply (NoEd _ (All q Hq)).
      unfold trip in Tq. injection Tq as Tq _ _. exact Tq.
    - destruct (From s Hs) as (q & Hq & <-). destruct (either_name dbg src t cf rules rs P ND I N R q Hq) as [Nq|Nq]; [exact (None q Hq Nq)|].
      destruct (empty_sug dbg src t cf rules rs P ND I N R q Hq Nq) as ((q1 & q2) & (pre2 & w2 & nl2 & post2 & Eb & Nw2 & Sw2 & Hn2 & Eq) & Tq). injection Eq as -> ->.
      unfold trip in Tq. injection Tq as Q1 Q2 Q3. change LexLines.LF with 10%N in *. change LexLines.CR with 13%N in *. rewrite Q3 in Ec'. cbn [app] in Ec'.
      assert (Tt : a ++ old ++ r = (pre2 ++ [10%N]) ++ w2 ++ nl2 ++ post2). { rewrite <- Ec, <- Es, Eb, <- app_assoc. reflexivity. }
      apply PropIndent.blen_inj in Tt as [_ Tt]; [|rewrite <- Q1; lia]. rewrite blen_app in Q1, Q2. cbn [blen] in Q1, Q2. apply PropIndent.blen_inj in Tt as [_ ->]; [|lia].
      assert (Br : brk r') by (eapply same_first_brk; [exact SF|exists nl2, post2; auto]). rewrite <- Ec' in Br. destruct w as [|z w]; [contradiction|]. inversion Bw as [|? ? Bz _]; subst.
      destruct Br as (nl3 & rest & Hn3 & X). destruct Hn3 as [-> | ->]; cbn [app] in X; injection X as -> _; discriminate Bz.
  Qed.
End Round.
