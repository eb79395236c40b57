(** Property theorems about the rules on lines: C63. *)
From Coq Require Import NArith String Bool Arith Lia List.
Import ListNotations.
From Verif Require Import Text Kind Regex Lexer LexerProofs ParserApi Machine TreeSpec.
From Verif Require Schema PropShape PropSkel PropLexer PropParser PropLines PropIndent PropFound3.
From Verif Require Import Red Typed Rule Rules Check Process RedFacts WalkSpec PropRun PropTree PropOff Found FoundRun PropFound LexLines Tidy.
Local Notation length := List.length (only parsing).
Local Open Scope list_scope.

(** * The reports of a single rule in a run *)
Section Run.
  Context (cf : config) (rules : list rule) (t : tree) (results : list result).
  Hypothesis I : incl rules RULE_DEFINITIONS.
  Hypothesis N : NoDup (map rl_name rules).
  Hypothesis H : run_rules cf rules t = Done results.
  Context (rl : rule) (R : In rl rules).

  Lemma same_name_same_rule r : In r rules -> rl_name r = rl_name rl -> r = rl.
  Proof.
    intros Hr E. eapply (C52_reports_name_their_rule cf rules t results); eauto.
  Qed.

  (** What the rule says about the tree as a whole. *)
  Lemma of_roots_rule : forall rs roots, incl rs rules -> NoDup (map rl_name rs) -> run_roots cf rs (root_elem t) = Done roots ->
    (In rl rs -> rl_root rl (mkCtx cf false) (root_elem t) = Done (of_rule (rl_name rl) roots)) /\
    (~ In rl rs -> of_rule (rl_name rl) roots = []).
  Proof.
    induction rs as [|r rs IH]; intros roots Ir ND E; cbn [run_roots] in E; [injection E as <-; split; [intros []|reflexivity]|].
    destruct (rl_root r (mkCtx cf false) (root_elem t)) as [x|] eqn:E1; [|discriminate E].
    destruct (run_roots cf rs (root_elem t)) as [y|]; [|discriminate E]. injection E as <-.
    inversion ND as [|? ? N1 N2]; subst. destruct (IH y ltac:(intros z Hz; apply Ir; now right) N2 eq_refl) as [IH1 IH2].
    assert (Hr : In r rules) by (apply Ir; now left).
    destruct (own_of rules I r Hr (mkCtx cf false) (root_elem t) t) as (_ & _ & G). rewrite E1 in G.
    rewrite of_rule_app, (of_rule_named _ _ _ G). destruct (text_eqb (rl_name r) (rl_name rl)) eqn:E2.
    - apply text_eqb_eq in E2. pose proof (same_name_same_rule r Hr E2) as ->.
      assert (NI : ~ In rl rs) by (intros X; apply N1; now apply in_map). rewrite (IH2 NI), app_nil_r. split; [auto|].
      intros X. destruct X. now left.
    - assert (NE : r <> rl) by (intros ->; rewrite text_eqb_refl in E2; discriminate). cbn [app]. split.
      + intros [X|X]; [contradiction|auto].
      + intros X. apply IH2. intros Y. apply X. now right.
  Qed.

  Lemma of_checked_rule b e : of_rule (rl_name rl) (checked cf rules b e)
    = if switched_off (rl_name rl) e then [] else (if is_node (el_tree e) then rl_node rl else rl_token rl) (mkCtx cf b) e.
  Proof.
    transitivity (flat_map (fun r => if text_eqb (rl_name r) (rl_name rl)
      then (if switched_off (rl_name r) e then [] else (if is_node (el_tree e) then rl_node r else rl_token r) (mkCtx cf b) e)
      else []) rules).
    - unfold checked. rewrite of_rule_flat_map.
      assert (G : forall rs, incl rs rules -> flat_map (fun x => of_rule (rl_name rl)
          (if switched_off (rl_name x) e then [] else (if is_node (el_tree e) then rl_node x else rl_token x) (mkCtx cf b) e)) rs
        = flat_map (fun r => if text_eqb (rl_name r) (rl_name rl)
            then (if switched_off (rl_name r) e then [] else (if is_node (el_tree e) then rl_node r else rl_token r) (mkCtx cf b) e)
            else []) rs).
      { induction rs as [|r rs IH]; intros Ir; [reflexivity|]. cbn [flat_map]. rewrite IH by (intros z Hz; apply Ir; now right). f_equal.
        destruct (own_of rules I r (Ir r (or_introl eq_refl)) (mkCtx cf b) e t) as (G1 & G2 & _).
        rewrite (of_rule_named _ (rl_name r)); [reflexivity|]. destruct (switched_off _ _); [constructor|]. destruct (is_node _); assumption. }
      apply G. apply incl_refl.
    - now rewrite (only_rule (fun r => if switched_off (rl_name r) e then [] else (if is_node (el_tree e) then rl_node r else rl_token r) (mkCtx cf b) e) _ rl) by auto.
  Qed.

  Lemma of_run : exists roots fl, rl_root rl (mkCtx cf false) (root_elem t) = Done roots /\
    of_rule (rl_name rl) results = roots ++
      flat_map (fun e => if switched_off (rl_name rl) e then [] else (if is_node (el_tree e) then rl_node rl else rl_token rl) (mkCtx cf (fl e)) e)
        (filter (seen run_hides) (elements t)).
  Proof.
    destruct (C17_whitespace_flag_partial cf rules t results H) as (roots & fl & Er & Eres & _).
    { intros X. rewrite X in R. destruct R. }
    destruct (of_roots_rule rules roots (incl_refl _) N Er) as [G _]. exists (of_rule (rl_name rl) roots), fl. split; [auto|].
    rewrite Eres, of_rule_app, of_rule_flat_map. f_equal. apply flat_map_ext. intros e. apply of_checked_rule.
  Qed.
  (** A rule that looks at the whole tree. *)
  Lemma root_rule : (forall c e, rl_node rl c e = []) -> (forall c e, rl_token rl c e = []) ->
    rl_root rl (mkCtx cf false) (root_elem t) = Done (of_rule (rl_name rl) results).
  Proof.
    intros Hn Ht. destruct of_run as (roots & fl & Er & ->). rewrite Er. f_equal. symmetry. rewrite <- (app_nil_r roots) at 2. f_equal.
    induction (filter (seen run_hides) (elements t)) as [|e l IH]; [reflexivity|]. cbn [flat_map]. rewrite IH, app_nil_r.
    destruct (switched_off _ _); [reflexivity|]. destruct (is_node _); auto.
  Qed.

  Context {A : Type} (Q : elem -> A -> Prop) (D : A -> shown -> Prop).
  (** A rule that looks at single tokens. *)
  Lemma exact_token_rule : (forall c e, rl_root rl c e = Done []) -> (forall c e, rl_node rl c e = []) ->
    (forall ctx e, cx_config ctx = cf -> In e (elements t) -> is_node (el_tree e) = false ->
      exists xs, NoDup xs /\ (forall x, In x xs <-> Q e x) /\ Forall2 (fun r x => D x (show r)) (rl_token rl ctx e) xs) ->
    (forall e x, Q e x -> is_node (el_tree e) = false) -> (forall e e' x, Q e x -> Q e' x -> e = e') ->
    exactly results (rl_name rl) (fun x => exists e, In e (elements t) /\ visible (rl_name rl) e /\ Q e x) D.
  Proof.
    intros no_roots no_nodes found in_token one_token.
    destruct of_run as (roots & fl & Er & Eres). rewrite no_roots in Er. injection Er as <-. cbn [app] in Eres.
    unfold exactly. change (filter (fun r : result => text_eqb (rs_rule r) (rl_name rl)) results) with (of_rule (rl_name rl) results). rewrite Eres. clear Eres.
    assert (G : forall l, NoDup l -> incl l (elements t) -> exists xs, NoDup xs /\
      (forall x, In x xs <-> exists e, In e l /\ switched_off (rl_name rl) e = false /\ Q e x) /\
      Forall2 (fun r x => D x (show r)) (flat_map (fun e => if switched_off (rl_name rl) e then [] else
        (if is_node (el_tree e) then rl_node rl else rl_token rl) (mkCtx cf (fl e)) e) l) xs).
    { induction l as [|e l IH]; intros ND Il.
      - exists []. split; [constructor|]. split; [|constructor]. intros x. split; [intros []|intros (e & [] & _)].
      - inversion ND as [|? ? N1 N2]; subst. destruct (IH N2) as (xs & X1 & X2 & X3); [intros z Hz; apply Il; now right|].
        cbn [flat_map].
        assert (C : exists ys, NoDup ys /\ (forall x, In x ys <-> switched_off (rl_name rl) e = false /\ Q e x) /\
          Forall2 (fun r x => D x (show r)) (if switched_off (rl_name rl) e then [] else (if is_node (el_tree e) then rl_node rl else rl_token rl) (mkCtx cf (fl e)) e) ys).
        { destruct (switched_off (rl_name rl) e).
          - exists []. split; [constructor|]. split; [|constructor]. intros x. split; [intros []|intros [X _]; discriminate X].
          - destruct (is_node (el_tree e)) eqn:En.
            + exists []. rewrite no_nodes. split; [constructor|]. split; [|constructor]. intros x. split; [intros []|intros [_ X]].
              rewrite (in_token e x X) in En. discriminate En.
            + destruct (found (mkCtx cf (fl e)) e eq_refl (Il e (or_introl eq_refl)) En) as (ys & Y1 & Y2 & Y3). exists ys.
              split; [exact Y1|]. split; [|exact Y3]. intros x. rewrite Y2. tauto. }
        destruct C as (ys & Y1 & Y2 & Y3). exists (ys ++ xs). split; [|split].
        + apply nodup_app; [exact Y1|exact X1|]. intros x Hx X. apply Y2 in Hx as [_ Hx]. apply X2 in X as (e' & He' & _ & X). apply N1.
          now rewrite (one_token e e' x Hx X).
        + intros x. rewrite in_app_iff, Y2, X2. split.
          * intros [[X Y]|(e' & X & Y)]; [exists e; cbn [In]; auto|exists e'; cbn [In]; tauto].
          * intros (e' & [->|X] & Y & Z); [auto|]. right. exists e'. auto.
        + apply Forall2_app; assumption. }
    destruct (G (filter (seen run_hides) (elements t))) as (xs & X1 & X2 & X3).
    { apply NoDup_filter, elements_nodup. }
    { intros z Hz. now apply filter_In in Hz. }
    exists xs. split; [exact X1|]. split; [|exact X3]. intros x. rewrite X2. unfold visible. split.
    - intros (e & He & S & Hq). apply filter_In in He as [He Hs]. exists e. auto.
    - intros (e & He & (Hs & S) & Hq). exists e. rewrite filter_In. auto.
  Qed.
End Run.

(** * C63: the first tokens of lines *)

(** The tokens outside of error nodes and of parts that a directive without rule names hides. *)
Definition walked (t : tree) : list elem := filter (fun e => negb (is_node (el_tree e))) (filter (seen tree_hides) (elements t)).
(** [x] comes right behind a line break, or first of all, and is none itself. *)
Definition first_in_line (l : list elem) (x : elem) : Prop :=
  exists a b, l = a ++ x :: b /\ el_kind x <> TK_LINE_BREAK /\ (a = [] \/ exists a' y, a = a' ++ [y] /\ el_kind y = TK_LINE_BREAK).
(** A directive for the rule applies to it (see C16). *)
Definition kept_from (rule : text) (x : elem) : Prop :=
  exists a, In a (lineage x) /\ tree_marks rule a = true /\ ~ cleared_within tree_hides (tree_marks rule) a x.
(** It is inside of a pre, textarea, script or style element (see C17). *)
Definition preformatted (x : elem) : Prop :=
  exists a, In a (lineage x) /\ is_sensitive_tag a = true /\ ~ cleared_within tree_hides is_sensitive_tag a x.

(** What is inside of [a] is one level deeper. *)
Definition deepening (cf : config) (a : elem) : bool :=
  existsb (kind_eqb (el_kind a)) [BODY; TWIG_ARGUMENTS; TWIG_LITERAL_ARRAY_INNER; TWIG_LITERAL_HASH_ITEMS; TWIG_PROP_DECLARATION]
  && (indent_children_of_blocks cf || negb (match parent a with Some p => kind_eqb (el_kind p) TWIG_BLOCK | None => false end)).
(** Attributes are aligned behind the name of the element. *)
Definition aligning (a : elem) : nat :=
  match parent a with
  | Some s => if node_of HTML_ATTRIBUTE_LIST a && node_of HTML_STARTING_TAG s
              then match starting_tag_name s with Some n => length (el_text n) + 2 | None => 0 end else 0
  | None => 0
  end.
Definition ancestors_of (x : elem) : list elem := tl (lineage x).
Definition depth (cf : config) (x : elem) : nat := length (filter (deepening cf) (ancestors_of x)).
Definition shift (x : elem) : nat := list_sum (map aligning (ancestors_of x)).
(** The white space a line should start with, and the one it starts with. *)
Definition wanted (cf : config) (x : elem) : text :=
  repeat (indentation_char (cf_indentation_mode cf)) (depth cf x * cf_indentation_count cf) ++ repeat 32%N (shift x).
Definition leading (x : elem) : text := if kind_eqb (el_kind x) TK_WHITESPACE then el_text x else [].
(** The indentation differs; or the rule is set to indent by no spaces, and the line starts with
    none inside something that indents. *)
Definition out_of_line (cf : config) (x : elem) : Prop :=
  leading x <> wanted cf x \/ (cf_indentation_count cf = 0 /\ leading x = [] /\ 0 < depth cf x).
Definition indentation_report (cf : config) (x : elem) (s : shown) : Prop :=
  s = mkShown SHelp (Some (el_start x, el_start x + blen (leading x))) [(el_start x, el_start x + blen (leading x), wanted cf x)].

Lemma indents_deepening cf e : is_node (el_tree e) = true -> indents (indent_children_of_blocks cf) e = deepening cf e.
Proof.
  intros _. unfold indents, deepening. f_equal.
  - destruct (el_kind e); reflexivity.
  - f_equal. destruct (parent e); reflexivity.
Qed.
Lemma substeps_aligning e : is_node (el_tree e) = true -> substeps_of e = aligning e.
Proof.
  intros Hn. unfold substeps_of, aligning, node_of, cast. rewrite Hn. cbn [andb]. destruct (parent e) as [p|]; cbn [obind].
  - destruct (kind_eqb (el_kind e) HTML_ATTRIBUTE_LIST); [|reflexivity]. cbn [andb].
    destruct (is_node (el_tree p) && kind_eqb (el_kind p) HTML_STARTING_TAG); cbn [obind]; [|reflexivity].
    destruct (starting_tag_name p); [lia|reflexivity].
  - destruct (kind_eqb _ _); reflexivity.
Qed.
Lemma nesting_depth ctx x : nesting ctx x = depth (cx_config ctx) x.
Proof.
  unfold nesting, depth, ancestors_of. f_equal. apply filter_ext_in. intros a Ha. apply indents_deepening. now apply lineage_is_node in Ha.
Qed.
Lemma alignment_shift x : alignment x = shift x.
Proof.
  unfold alignment, shift, ancestors_of. f_equal. apply map_ext_in. intros a Ha. apply substeps_aligning. now apply lineage_is_node in Ha.
Qed.

(** The first tokens of lines in a list of tokens. *)
Fixpoint firsts (lb : bool) (l : list elem) : list elem :=
  match l with
  | [] => []
  | x :: r => if kind_eqb (el_kind x) TK_LINE_BREAK then firsts true r else (if lb then [x] else []) ++ firsts false r
  end.
Lemma firsts_spec x : forall l lb, In x (firsts lb l) <->
  exists a b, l = a ++ x :: b /\ el_kind x <> TK_LINE_BREAK /\ ((a = [] /\ lb = true) \/ exists a' y, a = a' ++ [y] /\ el_kind y = TK_LINE_BREAK).
Proof.
  induction l as [|y l IH]; intros lb.
  - split; [intros []|]. intros ([|? ?] & b & E & _); discriminate E.
  - cbn [firsts].
    assert (T : forall lb', (exists a b, l = a ++ x :: b /\ el_kind x <> TK_LINE_BREAK /\ ((a = [] /\ lb' = true) \/ exists a' y, a = a' ++ [y] /\ el_kind y = TK_LINE_BREAK)) ->
      lb' = true -> el_kind y = TK_LINE_BREAK -> 
      exists a b, y :: l = a ++ x :: b /\ el_kind x <> TK_LINE_BREAK /\ ((a = [] /\ lb = true) \/ exists a' z, a = a' ++ [z] /\ el_kind z = TK_LINE_BREAK)).
    { intros lb' (a & b & -> & K & C) _ Ky. exists (y :: a), b. split; [reflexivity|]. split; [exact K|]. right.
      destruct C as [[-> _]|(a' & z & -> & Kz)]; [exists [], y; auto|exists (y :: a'), z; auto]. }
    destruct (kind_eqb (el_kind y) TK_LINE_BREAK) eqn:Ky.
    + apply kind_eqb_eq in Ky. rewrite IH. split; [intros X; exact (T true X eq_refl Ky)|].
      intros ([|z a] & b & E & K & C); cbn [app] in E; injection E as -> ->.
      * contradiction.
      * exists a, b. split; [reflexivity|]. split; [exact K|]. destruct C as [[C _]|(a' & w & C & Kw)]; [discriminate C|].
        destruct a' as [|v a']; cbn [app] in C; injection C as -> ->; [left; auto|right; exists a', w; auto].
    + assert (Ny : el_kind y <> TK_LINE_BREAK) by (intros X; apply kind_eqb_eq in X; rewrite X in Ky; discriminate).
      rewrite in_app_iff, IH. split.
      * intros [X|(a & b & -> & K & C)].
        -- destruct lb; [|destruct X]. destruct X as [<-|[]]. exists [], l. auto.
        -- exists (y :: a), b. split; [reflexivity|]. split; [exact K|]. right. destruct C as [[_ C]|(a' & z & -> & Kz)]; [discriminate C|].
           exists (y :: a'), z. auto.
      * intros ([|z a] & b & E & K & C); cbn [app] in E; injection E as -> ->.
        -- destruct C as [[_ ->]|(a' & w & C & _)]; [left; now left|destruct a'; discriminate C].
        -- right. exists a, b. split; [reflexivity|]. split; [exact K|]. destruct C as [[C _]|(a' & w & C & Kw)]; [discriminate C|].
           destruct a' as [|v a']; cbn [app] in C; injection C as -> ->; [contradiction|right; exists a', w; auto].
Qed.
Lemma firsts_incl x : forall l lb, In x (firsts lb l) -> In x l.
Proof. intros l lb Hx. apply firsts_spec in Hx as (a & b & -> & _). apply in_elt. Qed.
Lemma firsts_nodup : forall l lb, NoDup l -> NoDup (firsts lb l).
Proof.
  induction l as [|x l IH]; intros lb ND; [constructor|]. inversion ND as [|? ? N1 N2]; subst. cbn [firsts].
  destruct (kind_eqb (el_kind x) TK_LINE_BREAK); [auto|]. destruct lb; cbn [app]; [|auto]. constructor; [|auto].
  intros X. apply N1. eapply firsts_incl, X.
Qed.
Lemma line_results_firsts ctx : forall l lb, line_results ctx lb l =
  flat_map (fun x => if negb (tree_ignored (txt "indentation"%string) x) && negb (indent_protected x)
                     then handle_first_token_in_line ctx x (nesting ctx x) (alignment x) else [])
    (firsts lb (filter (fun e => negb (is_node (el_tree e))) l)).
Proof.
  induction l as [|x l IH]; intros lb; [reflexivity|]. cbn [line_results filter]. destruct (is_node (el_tree x)); cbn [negb]; [apply IH|].
  cbn [firsts]. destruct (kind_eqb (el_kind x) TK_LINE_BREAK); [apply IH|]. rewrite IH, flat_map_app. f_equal. destruct lb; cbn [andb flat_map]; [|reflexivity].
  now rewrite app_nil_r.
Qed.

Lemma done_inj {A} (a b : A) : Done a = Done b -> a = b.
Proof. intros H. injection H. auto. Qed.
Lemma repeat_nil {A} (x : A) n : repeat x n = [] <-> n = 0.
Proof. destruct n; cbn; split; congruence. Qed.
Lemma token_nonempty dbg src t errs x : parse_src dbg src = OK (t, errs) -> In x (elements t) -> is_node (el_tree x) = false -> el_start x < el_end x.
Proof.
  intros P I N. rewrite el_end_text. destruct (el_tree x) as [k s|] eqn:T; [|discriminate N].
  assert (S : s <> []). { apply (PropFound3.leaf_text dbg src t errs P k s). rewrite <- T. now apply element_subtree. }
  unfold el_text. rewrite T, tree_text_leaf. destruct s as [|c s]; [congruence|]. cbn [blen]. pose proof (utf8_len_pos c). lia.
Qed.
Lemma handle_exact ctx x : is_node (el_tree x) = false -> el_start x < el_end x ->
  (~ out_of_line (cx_config ctx) x /\ handle_first_token_in_line ctx x (nesting ctx x) (alignment x) = []) \/
  (out_of_line (cx_config ctx) x /\ exists r, handle_first_token_in_line ctx x (nesting ctx x) (alignment x) = [r] /\
     indentation_report (cx_config ctx) x (show r)).
Proof.
  intros Hx C. rewrite nesting_depth, alignment_shift. unfold handle_first_token_in_line, indentation_report, out_of_line, leading.
  fold (wanted (cx_config ctx) x). destruct (kind_eqb (el_kind x) TK_WHITESPACE).
  - assert (Ne : el_text x <> []) by (intros X; rewrite el_end_text, X in C; cbn in C; lia).
    destruct (text_eqb (el_text x) (wanted (cx_config ctx) x)) eqn:E; cbn [negb].
    + left. apply text_eqb_eq in E. tauto.
    + right. split; [left; intros X; rewrite X, text_eqb_refl in E; discriminate|]. eexists. split; [reflexivity|].
      replace (el_start x + blen (el_text x)) with (el_end x); [reflexivity|]. apply el_end_text.
  - cbn [blen]. rewrite Nat.add_0_r. destruct (Nat.ltb 0 (depth (cx_config ctx) x) || Nat.ltb 0 (shift x)) eqn:E.
    + right. split; [|eexists; split; reflexivity]. destruct (Nat.eq_dec (shift x) 0) as [Z|Z].
      * rewrite Z, orb_false_r in E. apply Nat.ltb_lt in E. destruct (Nat.eq_dec (cf_indentation_count (cx_config ctx)) 0) as [Y|Y]; [auto|].
        left. intros X. symmetry in X. unfold wanted in X. apply app_eq_nil in X as [X1 _]. rewrite repeat_nil in X1. apply Nat.eq_mul_0 in X1. lia.
      * left. intros X. symmetry in X. unfold wanted in X. apply app_eq_nil in X as [_ X]. rewrite repeat_nil in X. lia.
    + left. apply orb_false_iff in E as [E1 E2]. apply Nat.ltb_ge in E1, E2. split; [|reflexivity]. intros [X|(_ & _ & X)]; [|lia]. apply X. unfold wanted.
      replace (depth (cx_config ctx) x) with 0 by lia. replace (shift x) with 0 by lia. reflexivity.
Qed.

Theorem C63_indentation_is_reported_exactly : forall dbg src t errs cf rules results,
  parse_src dbg src = OK (t, errs) -> incl rules RULE_DEFINITIONS -> NoDup (map rl_name rules) -> In rule_indentation rules ->
  run_rules cf rules t = Done results ->
  exactly results (txt "indentation"%string)
    (fun x => first_in_line (walked t) x /\ ~ kept_from (txt "indentation"%string) x /\ ~ preformatted x /\ out_of_line cf x)
    (indentation_report cf).
Proof.
  intros dbg src t errs cf rules results HP HI HN Hin HR.
  pose proof (root_rule cf rules t results HI HN HR rule_indentation Hin ltac:(reflexivity) ltac:(reflexivity)) as E.
  change (rl_root rule_indentation (mkCtx cf false) (root_elem t)) with (indent_root (mkCtx cf false) (root_elem t)) in E.
  rewrite (PropSkel.C37_indentation_level_never_underflows (mkCtx cf false) dbg src t errs) in E by (unfold parse_file; rewrite HP; reflexivity).
  apply done_inj in E. unfold exactly. change (filter (fun r : result => text_eqb (rs_rule r) (txt "indentation"%string)) results) with (of_rule (txt "indentation"%string) results).
  match goal with |- context [of_rule (txt "indentation"%string) results] => replace (of_rule (txt "indentation"%string) results) with (line_results (mkCtx cf false) true (filter (seen tree_hides) (elements t))) by exact E end.
  rewrite line_results_firsts. fold (walked t).
  match goal with |- context [flat_map ?g (firsts true (walked t))] => set (f := g) end.
  assert (G : forall l, NoDup l -> (forall x, In x l -> is_node (el_tree x) = false /\ el_start x < el_end x) -> exists xs, NoDup xs /\
    (forall x, In x xs <-> In x l /\ ~ kept_from (txt "indentation"%string) x /\ ~ preformatted x /\ out_of_line cf x) /\
    Forall2 (fun r x => indentation_report cf x (show r)) (flat_map f l) xs).
  { induction l as [|x l IH]; intros ND Nl.
    - exists []. split; [constructor|]. split; [|constructor]. intros x. split; [intros []|intros [[] _]].
    - inversion ND as [|? ? N1 N2]; subst. destruct (IH N2) as (xs & X1 & X2 & X3); [intros z Hz; apply Nl; now right|]. cbn [flat_map].
      assert (B : negb (tree_ignored (txt "indentation"%string) x) && negb (indent_protected x) = true <->
                  ~ kept_from (txt "indentation"%string) x /\ ~ preformatted x).
      { rewrite andb_true_iff, !negb_true_iff. unfold kept_from, preformatted, tree_ignored, indent_protected.
        rewrite <- !flag_spec, !not_true_iff_false. reflexivity. }
      destruct (handle_exact (mkCtx cf false) x (proj1 (Nl x (or_introl eq_refl))) (proj2 (Nl x (or_introl eq_refl)))) as [[W Hh]|(W & r & Hh & Hr)]; cbn [cx_config] in *.
      + exists xs. split; [exact X1|]. split.
        * intros y. rewrite X2. cbn [In]. split; [tauto|]. intros ([<-|Y] & Z); tauto.
        * unfold f at 1. rewrite Hh. destruct (_ && _); exact X3.
      + unfold f at 1. rewrite Hh. destruct (negb (tree_ignored (txt "indentation"%string) x) && negb (indent_protected x)) eqn:Eb.
        * exists (x :: xs). split; [constructor; [rewrite X2; tauto|exact X1]|]. split; [|constructor; assumption].
          intros y. cbn [In]. rewrite X2. split; [intros [<-|Y]; [|tauto]|intros ([<-|Y] & Z); tauto].
          split; [now left|]. destruct (proj1 B eq_refl). auto.
        * exists xs. split; [exact X1|]. split; [|exact X3]. intros y. rewrite X2. cbn [In]. split; [tauto|]. intros ([<-|Y] & Z); [|tauto].
          exfalso. assert (X : false = true) by (apply B; tauto). discriminate X. }
  destruct (G (firsts true (walked t))) as (xs & X1 & X2 & X3).
  { apply firsts_nodup. unfold walked. do 2 apply NoDup_filter. apply elements_nodup. }
  { intros x Hx. apply firsts_incl in Hx. unfold walked in Hx. apply filter_In in Hx as [Hx Nx]. apply filter_In in Hx as [Hx _]. apply negb_true_iff in Nx.
    split; [exact Nx|]. now apply (token_nonempty dbg src t errs). }
  exists xs. split; [exact X1|]. split; [|exact X3]. intros x. rewrite X2. unfold first_in_line. rewrite firsts_spec.
  split; intros ((a & b & E1 & K & C) & Z); (split; [|exact Z]); exists a, b; (split; [exact E1|]); (split; [exact K|]); [destruct C as [[C _]|C]; auto|destruct C as [C|C]; auto].
Qed.

(** * Tokens of the source and tokens of the tree *)
Definition same_token (e : elem) (k : token) : Prop :=
  el_kind e = tk_kind k /\ el_text e = tk_text k /\ el_start e = tk_start k.

Lemma tokens_leaves t : map (fun e => (el_kind e, el_text e)) (tokens_of (elements t)) = leaves t.
Proof.
  unfold elements. generalize 0, (@nil crumb). induction t as [k s|k cs IH] using tree_induction; intros off p.
  - cbn [preorder tokens_of filter is_node el_tree negb map leaves]. unfold el_kind, el_text. cbn [el_tree tree_kind]. now rewrite tree_text_leaf.
  - rewrite preorder_children. unfold children_with_tokens. cbn [tokens_of filter is_node el_tree el_off el_path negb leaves].
    fold (tokens_of (flat_map preorder_elem (elems_of k off p [] off cs))).
    generalize off at 2. generalize (@nil tree). induction IH as [|c cs Hc _ IHl]; intros l o; [reflexivity|].
    cbn [elems_of flat_map]. rewrite tokens_of_app, map_app, IHl. f_equal. apply Hc.
Qed.
Lemma tokens_tiled : forall l a b, PropIndent.tiled a l b -> PropIndent.tiled a (tokens_of l) b.
Proof.
  induction l as [|x l IH]; intros a b H; [exact H|]. cbn [PropIndent.tiled tokens_of filter] in *. destruct (is_node (el_tree x)) eqn:N; cbn [negb]; [now apply IH|].
  cbn [PropIndent.tiled]. rewrite N. destruct H as [H1 H2]. split; [exact H1|now apply IH].
Qed.
Lemma locate_first : forall ls ts, merges ls ts -> forall o e o' E, PropLexer.adjacent o ts e -> PropIndent.tiled o E o' ->
  Forall (fun x => is_node (el_tree x) = false) E -> map (fun x => (el_kind x, el_text x)) E = ls ->
  forall tri t2, ts = tri ++ t2 -> Forall (fun k => is_trivia (tk_kind k) = true) tri ->
  exists Et E2, E = Et ++ E2 /\ Forall2 same_token Et tri.
Proof.
  induction 1 as [|k t ls ts Hk M IH|c t ls ts Hc Hl M IH]; intros o e o' E A T F Em tri t2 Et Tr.
  - destruct tri; [|discriminate Et]. exists [], E. split; [reflexivity|constructor].
  - destruct tri as [|t' tri]; [exists [], E; split; [reflexivity|constructor]|]. cbn [app] in Et. injection Et as <- ->.
    inversion Tr as [|? ? Tr1 Tr2]; subst. destruct E as [|x E]; [discriminate Em|]. cbn [map] in Em. injection Em as Ek Ex Em.
    inversion F as [|? ? F1 F2]; subst. cbn [PropIndent.tiled] in T. rewrite F1 in T. destruct T as [T1 T2]. inversion A as [|? ? ? ? A1 A2 A3 A4]; subst.
    destruct Hk as [Hk|[_ Hk]]; [|congruence].
    assert (Ee : el_end x = tk_end t) by (rewrite el_end_text, Ex; lia). rewrite Ee in T2.
    destruct (IH _ _ _ E A4 T2 F2 eq_refl tri t2 eq_refl Tr2) as (Et & E2 & -> & FF). exists (x :: Et), E2. split; [reflexivity|].
    constructor; [|exact FF]. split; [congruence|]. split; [exact Ex|lia].
  - destruct tri as [|t' tri]; [exists [], E; split; [reflexivity|constructor]|]. cbn [app] in Et. injection Et as <- _.
    inversion Tr as [|? ? Tr1 Tr2]; subst. rewrite Hc in Tr1. discriminate Tr1.
Qed.
Lemma locate : forall ls ts, merges ls ts -> forall o e o' E, PropLexer.adjacent o ts e -> PropIndent.tiled o E o' ->
  Forall (fun x => is_node (el_tree x) = false) E -> map (fun x => (el_kind x, el_text x)) E = ls ->
  forall t1 tri t2, ts = t1 ++ tri ++ t2 -> Forall (fun k => is_trivia (tk_kind k) = true /\ ~ letter_first (tk_text k)) tri ->
  exists E1 Et E2, E = E1 ++ Et ++ E2 /\ Forall2 same_token Et tri.
Proof.
  induction 1 as [|k t ls ts Hk M IH|c t ls ts Hc Hl M IH]; intros o e o' E A T F Em t1 tri t2 Et Tr.
  - destruct t1; [|discriminate Et]. destruct tri; [|discriminate Et]. exists [], [], E. split; [reflexivity|constructor].
  - destruct t1 as [|t' t1].
    + cbn [app] in Et. destruct (locate_first _ _ (merges_tok k t ls ts Hk M) o e o' E A T F Em tri t2 Et) as (Et' & E2 & -> & FF).
      { eapply Forall_impl; [|exact Tr]. cbn. tauto. }
      exists [], Et', E2. auto.
    + cbn [app] in Et. injection Et as <- ->. destruct E as [|x E]; [discriminate Em|]. cbn [map] in Em. injection Em as Ek Ex Em.
      inversion F as [|? ? F1 F2]; subst. cbn [PropIndent.tiled] in T. rewrite F1 in T. destruct T as [T1 T2]. inversion A as [|? ? ? ? A1 A2 A3 A4]; subst.
      assert (Ee : el_end x = tk_end t) by (rewrite el_end_text, Ex; lia). rewrite Ee in T2.
      destruct (IH _ _ _ E A4 T2 F2 eq_refl t1 tri t2 eq_refl Tr) as (E1 & Et & E2 & -> & FF). exists (x :: E1), Et, E2. auto.
  - destruct tri as [|t0 tri]; [exists [], [], E; split; [reflexivity|constructor]|]. inversion Tr as [|? ? [Tr1 Tr2] Tr3]; subst.
    destruct t1 as [|t' [|t'' t1]]; cbn [app] in Et.
    + injection Et as <- _. rewrite Hc in Tr1. discriminate Tr1.
    + injection Et as <- <- _. contradiction.
    + injection Et as <- <- ->. destruct E as [|x E]; [discriminate Em|]. cbn [map] in Em. injection Em as Ek Ex Em.
      inversion F as [|? ? F1 F2]; subst. cbn [PropIndent.tiled] in T. rewrite F1 in T. destruct T as [T1 T2].
      inversion A as [|? ? ? ? A1 A2 A3 A4]; subst. inversion A4 as [|? ? ? ? B1 B2 B3 B4]; subst.
      assert (Ee : el_end x = tk_end t) by (rewrite el_end_text, Ex, blen_app; lia). rewrite Ee in T2.
      destruct (IH _ _ _ E B4 T2 F2 eq_refl t1 (t0 :: tri) t2 eq_refl Tr) as (E1 & Et & E2 & -> & FF). exists (x :: E1), Et, E2. auto.
Qed.
(** White space and line breaks of the source are tokens of the tree, one for one. *)
Lemma trivia_in_tree dbg src t errs t1 tri t2 : parse_src dbg src = OK (t, errs) -> lex src = t1 ++ tri ++ t2 ->
  Forall (fun k => is_trivia (tk_kind k) = true) tri ->
  exists E1 Et E2, tokens_of (elements t) = E1 ++ Et ++ E2 /\ Forall2 same_token Et tri.
Proof.
  intros P L Tr. destruct (PropLexer.C01_lex_lossless src) as (_ & _ & A).
  apply (locate _ _ (PropParser.C08_leaves_refine_tokens _ _ _ _ P) 0 (blen src) (tree_len t) (tokens_of (elements t)) A
    (tokens_tiled _ _ _ (PropIndent.elements_tiled t))) with (t1 := t1) (t2 := t2); [|apply tokens_leaves|exact L|].
  - apply Forall_forall. intros x Hx. apply filter_In in Hx as [_ Hx]. now apply negb_true_iff in Hx.
  - apply Forall_forall. intros k Hk. rewrite Forall_forall in Tr. split; [now apply Tr|]. intros (c & w & E & C).
    assert (I : In k (lex src)) by (rewrite L; apply in_app_iff; right; apply in_app_iff; now left).
    pose proof (trivia_no_letter src k I (Tr k Hk)) as F. rewrite E in F. inversion F as [|? ? F1 _]; subst. unfold LF, CR in F1. lia.
Qed.

Lemma tiled_text : forall E o o', Forall (fun x => is_node (el_tree x) = false) E -> PropIndent.tiled o E o' ->
  o' = o + blen (List.concat (map el_text E)).
Proof.
  induction E as [|x E IH]; intros o o' F T; [cbn in *; lia|]. inversion F as [|? ? F1 F2]; subst. cbn [PropIndent.tiled] in T. rewrite F1 in T.
  destruct T as [<- T]. apply IH in T; [|exact F2]. cbn [map List.concat]. rewrite blen_app, T, el_end_text. lia.
Qed.
Lemma in_tokens t x : In x (tokens_of (elements t)) <-> In x (elements t) /\ is_node (el_tree x) = false.
Proof. unfold tokens_of. rewrite filter_In, negb_true_iff. reflexivity. Qed.
Lemma tokens_nodes t : Forall (fun x => is_node (el_tree x) = false) (tokens_of (elements t)).
Proof. apply Forall_forall. intros x Hx. now apply in_tokens in Hx. Qed.
Lemma tokens_source dbg src t errs : parse_src dbg src = OK (t, errs) -> List.concat (map el_text (tokens_of (elements t))) = src.
Proof.
  intros P. destruct (PropParser.C02_parse_lossless _ _ _ _ P) as [_ <-]. unfold tree_text. rewrite <- tokens_leaves, map_map. reflexivity.
Qed.
(** The next token is the next one in the list. *)
Lemma next_token_list dbg src t errs x y : parse_src dbg src = OK (t, errs) -> In x (elements t) -> is_node (el_tree x) = false ->
  next_token x = Some y -> exists a b, tokens_of (elements t) = a ++ x :: y :: b.
Proof.
  intros P Ix Nx E. pose proof (within_next_token t x y (elements_within _ _ Ix) E) as Wy. apply within_elements in Wy as Iy.
  destruct (PropIndent.next_token_adjacent t x y (elements_within _ _ Ix) E) as [S Ny].
  pose proof (token_nonempty _ _ _ _ x P Ix Nx) as Lx. pose proof (token_nonempty _ _ _ _ y P Iy Ny) as Ly.
  assert (Hx : In x (tokens_of (elements t))) by now apply in_tokens. assert (Hy : In y (tokens_of (elements t))) by now apply in_tokens.
  pose proof (tokens_tiled _ _ _ (PropIndent.elements_tiled t)) as T. assert (NE : forall z, In z (tokens_of (elements t)) -> el_start z < el_end z).
  { intros z Hz. apply in_tokens in Hz as [Hz Nz]. now apply (token_nonempty dbg src t errs). }
  apply in_split in Hx as (a & b & Eq). rewrite Eq in *. apply PropIndent.tiled_split in T as [T1 T2]; [|exact Nx].
  apply in_app_iff in Hy as [Hy|[Hy|Hy]].
  - apply in_split in Hy as (a1 & a2 & ->). apply PropIndent.tiled_split in T1 as [_ T1]; [|exact Ny]. apply PropIndent.tiled_le in T1. lia.
  - subst y. lia.
  - destruct b as [|z b]; [destruct Hy|]. destruct Hy as [->|Hy]; [exists a, b; reflexivity|]. exfalso.
    assert (Nz : is_node (el_tree z) = false). { apply (proj1 (in_tokens t z)). rewrite Eq. apply in_app_iff. right. right. now left. }
    cbn [PropIndent.tiled] in T2. rewrite Nz in T2. destruct T2 as [Z1 Z2]. apply in_split in Hy as (b1 & b2 & ->).
    apply PropIndent.tiled_split in Z2 as [Z2 _]; [|exact Ny]. apply PropIndent.tiled_le in Z2. specialize (NE z ltac:(apply in_app_iff; right; right; now left)). lia.
Qed.
Lemma next_token_sibling x y : next_sibling_or_token x = Some y -> is_node (el_tree y) = false -> next_token x = Some y.
Proof.
  intros E N. unfold next_token. assert (F : first_token y = Some y).
  { destruct y as [[k s|k cs] o p]; [reflexivity|discriminate N]. }
  destruct (length (el_path x)); cbn [next_token_up]; rewrite E; exact F.
Qed.

(** * C63: lines of nothing but spaces and tabs *)
Definition blank_line (src : text) (p : nat * nat) : Prop :=
  exists pre w nl post, src = pre ++ LF :: w ++ nl ++ post /\ w <> [] /\ spaces w /\ (nl = [LF] \/ nl = [CR; LF]) /\
    p = (blen (pre ++ [LF]), blen (pre ++ [LF] ++ w)).
Definition removed (sv : severity) (p : nat * nat) (s : shown) : Prop := s = mkShown sv (Some p) [(p, [])].

(** The token of the tree that ends at [n]. *)
Definition token_ending (t : tree) (n : nat) (x : elem) : Prop :=
  In x (elements t) /\ is_node (el_tree x) = false /\ el_end x = n.
Lemma token_ending_one dbg src t errs n x y : parse_src dbg src = OK (t, errs) -> token_ending t n x -> token_ending t n y -> x = y.
Proof.
  intros P (Ix & Nx & Ex) (Iy & Ny & Ey). pose proof (token_nonempty _ _ _ _ x P Ix Nx). pose proof (token_nonempty _ _ _ _ y P Iy Ny).
  destruct (PropIndent.tokens_apart t x y Ix Iy Nx Ny) as [->|[A|A]]; [reflexivity|lia|lia].
Qed.

Lemma blank_line_next dbg src t errs p : parse_src dbg src = OK (t, errs) -> blank_line src p ->
  exists x w y, token_ending t (fst p) x /\ el_kind x = TK_LINE_BREAK /\ next_token x = Some w /\ el_kind w = TK_WHITESPACE /\ p = (el_start w, el_end w) /\
    next_token w = Some y /\ el_kind y = TK_LINE_BREAK.
Proof.
  intros P (pre & w & nl & post & E & N & S & Hn & ->).
  destruct (blank_line_tokens src pre w nl post E N S Hn) as (t1 & x & y & z & t2 & L & Kx & Ky & Kz & Ty & Sy).
  change (t1 ++ x :: y :: z :: t2) with (t1 ++ [x; y; z] ++ t2) in L.
  destruct (trivia_in_tree dbg src t errs t1 [x; y; z] t2 P L) as (E1 & Et & E2 & Eq & F).
  { constructor; [now rewrite Kx|]. constructor; [now rewrite Ky|]. constructor; [now rewrite Kz|constructor]. }
  inversion F as [|ex ? Et1 ? Fx F1]; subst. inversion F1 as [|ey ? Et2 ? Fy F2]; subst. inversion F2 as [|ez ? Et3 ? Fz F3]; subst. inversion F3; subst.
  destruct Fx as (X1 & X2 & X3), Fy as (Y1 & Y2 & Y3), Fz as (Z1 & Z2 & Z3). cbn [app] in Eq.
  assert (Nn : forall v, In v (E1 ++ ex :: ey :: ez :: E2) -> In v (elements t) /\ is_node (el_tree v) = false) by (intros v Hv; apply in_tokens; now rewrite Eq).
  assert (Bx : Tidy.blank ex = true) by (unfold Tidy.blank; now rewrite X1, Kx). assert (By : Tidy.blank ey = true) by (unfold Tidy.blank; now rewrite Y1, Ky).
  assert (Bz : Tidy.blank ez = true) by (unfold Tidy.blank; now rewrite Z1, Kz).
  pose proof (C08_white_space_stays_together dbg _ t errs P E1 ex ey (ez :: E2) Eq Bx By) as SX.
  assert (Eq2 : tokens_of (elements t) = (E1 ++ [ex]) ++ ey :: ez :: E2) by (rewrite <- app_assoc; exact Eq).
  pose proof (C08_white_space_stays_together dbg _ t errs P (E1 ++ [ex]) ey ez E2 Eq2 By Bz) as SY.
  destruct (Nn ex) as [Ix Nx]; [apply in_elt|]. destruct (Nn ey) as [Iy Ny]; [apply in_app_iff; right; right; now left|].
  destruct (Nn ez) as [Iz Nz]; [apply in_app_iff; do 3 right; now left|].
  apply next_token_sibling in SX; [|exact Ny]. apply next_token_sibling in SY; [|exact Nz].
  destruct (PropIndent.next_token_adjacent t ex ey (elements_within _ _ Ix) SX) as [Ad _].
  assert (LF1 : blen [LF] = 1) by reflexivity.
  exists ex, ey, ez. split; [split; [exact Ix|split; [exact Nx|]]|].
  { cbn [fst]. rewrite <- Ad, Y3, Sy, blen_app, LF1. lia. }
  split; [congruence|]. split; [exact SX|]. split; [congruence|]. split; [|split; [exact SY|congruence]].
  rewrite el_end_text, Y3, Y2, Sy, !blen_app, LF1. f_equal; lia.
Qed.
Lemma breaks_ends l : l <> [] -> (exists a, PropLines.breaks l = a ++ [LF]) /\ (exists nl r, PropLines.breaks l = nl ++ r /\ (nl = [LF] \/ nl = [CR; LF])).
Proof.
  intros N. split; [exact (PropIndent.breaks_end l N)|]. destruct l as [|[|] l]; [congruence| |].
  - exists [CR; LF], (PropLines.breaks l). auto.
  - exists [LF], (PropLines.breaks l). auto.
Qed.
Lemma next_blank_line dbg src t errs x w y : parse_src dbg src = OK (t, errs) -> In x (elements t) -> is_node (el_tree x) = false ->
  el_kind x = TK_LINE_BREAK -> next_token x = Some w -> el_kind w = TK_WHITESPACE -> next_token w = Some y -> el_kind y = TK_LINE_BREAK ->
  blank_line src (el_start w, el_end w) /\ el_end x = el_start w.
Proof.
  intros P Ix Nx Kx Ew Kw Ey Ky. assert (P' : parse_file dbg src = Done (t, errs)) by (unfold parse_file; now rewrite P).
  destruct (PropIndent.next_token_adjacent t x w (elements_within _ _ Ix) Ew) as [Sw Nw].
  pose proof (within_elements _ _ (within_next_token _ _ _ (elements_within _ _ Ix) Ew)) as Iw.
  destruct (PropIndent.next_token_adjacent t w y (elements_within _ _ Iw) Ey) as [Sy Ny].
  pose proof (within_elements _ _ (within_next_token _ _ _ (elements_within _ _ Iw) Ey)) as Iy.
  split; [|now symmetry].
  destruct (next_token_list dbg src t errs x w P Ix Nx Ew) as (a & b & Eq). destruct (next_token_list dbg src t errs w y P Iw Nw Ey) as (a2 & b2 & Eq2).
  assert (B : b = y :: b2).
  { assert (ND : NoDup (tokens_of (elements t))) by (apply NoDup_filter, elements_nodup).
    assert (Eq' : tokens_of (elements t) = (a ++ [x]) ++ w :: b) by (rewrite <- app_assoc; exact Eq).
    rewrite Eq' in ND, Eq2. clear - ND Eq2. revert a2 Eq2. induction (a ++ [x]) as [|v l IH]; intros a2 Eq2; destruct a2 as [|v2 a2]; cbn [app] in Eq2.
    - injection Eq2; auto.
    - injection Eq2 as <- E. exfalso. inversion ND as [|? ? N1 _]; subst. apply N1. apply in_elt.
    - injection Eq2 as -> E. exfalso. inversion ND as [|? ? N1 _]; subst. apply N1. apply in_elt.
    - injection Eq2 as -> E. inversion ND; subst. eauto. }
  subst b. destruct (PropLines.C33_line_break_tokens dbg src t errs x P' Ix Nx Kx) as (lx & Lx & Tx).
  destruct (PropLines.C33_line_break_tokens dbg src t errs y P' Iy Ny Ky) as (ly & Ly & Tyy).
  destruct (proj1 (breaks_ends lx Lx)) as (u & U). destruct (proj2 (breaks_ends ly Ly)) as (nl & r & R & Hn).
  pose proof (PropIndent.whitespace_tokens dbg src t errs w P' Iw Nw Kw) as W.
  pose proof (tokens_source dbg src t errs P) as Src. rewrite Eq, map_app, concat_app in Src. cbn [map List.concat] in Src. rewrite Tx, U, Tyy, R in Src.
  pose proof (tokens_tiled _ _ _ (PropIndent.elements_tiled t)) as T. rewrite Eq in T. apply PropIndent.tiled_split in T as [T1 _]; [|exact Nx].
  apply tiled_text in T1; [|pose proof (tokens_nodes t) as TN; rewrite Eq in TN; apply Forall_app in TN; apply TN].
  assert (Ex : el_end x = blen (List.concat (map el_text a) ++ u) + 1).
  { rewrite el_end_text, T1, Tx, U, !blen_app. change (blen [LF]) with 1. lia. }
  exists (List.concat (map el_text a) ++ u), (el_text w), nl, (r ++ List.concat (map el_text b2)). split; [|split; [|split; [|split; [exact Hn|]]]].
  - rewrite <- Src. rewrite <- !app_assoc. reflexivity.
  - intros X. pose proof (token_nonempty _ _ _ _ w P Iw Nw) as Q. rewrite el_end_text, X in Q. cbn in Q. lia.
  - eapply Forall_impl; [|exact W]. intros c Hc. cbn beta in Hc. unfold LexLayout.blankc in Hc. apply orb_true_iff in Hc as [Hc|Hc]; apply N.eqb_eq in Hc; auto.
  - rewrite (el_end_text w), Sw, Ex, !blen_app. change (blen [LF]) with 1. f_equal; lia.
Qed.

Theorem C63_blank_lines_are_reported_exactly : forall dbg src t errs cf rules results,
  parse_src dbg src = OK (t, errs) -> incl rules RULE_DEFINITIONS -> NoDup (map rl_name rules) -> In rule_whitespace_between_line_breaks rules ->
  run_rules cf rules t = Done results ->
  exactly results (txt "whitespace-between-line-breaks"%string)
    (fun p => blank_line src p /\ exists x, token_ending t (fst p) x /\ visible (txt "whitespace-between-line-breaks"%string) x)
    (removed SHelp).
Proof.
  intros dbg src t errs cf rules results HP HI HN Hin HR.
  assert (G : exactly results (rl_name rule_whitespace_between_line_breaks)
    (fun p => exists x, In x (elements t) /\ visible (rl_name rule_whitespace_between_line_breaks) x /\ (blank_line src p /\ token_ending t (fst p) x)) (removed SHelp)).
  { apply (exact_token_rule cf rules t results HI HN HR rule_whitespace_between_line_breaks Hin (fun x p => blank_line src p /\ token_ending t (fst p) x) (removed SHelp)).
    - reflexivity.
    - reflexivity.
    - intros ctx x _ Ix Nx. cbn [rl_token rule_whitespace_between_line_breaks].
      assert (NO : (forall w y, el_kind x = TK_LINE_BREAK -> next_token x = Some w -> el_kind w = TK_WHITESPACE -> next_token w = Some y -> el_kind y <> TK_LINE_BREAK) ->
        exists xs, NoDup xs /\ (forall p, In p xs <-> blank_line src p /\ token_ending t (fst p) x) /\ Forall2 (fun r p => removed SHelp p (show r)) [] xs).
      { intros No. exists []. split; [constructor|]. split; [|constructor]. intros p. split; [intros []|]. intros [B Te].
        destruct (blank_line_next dbg src t errs p HP B) as (x' & w & y & Te' & K & E1 & K1 & _ & E2 & K2).
        assert (x' = x) as -> by (eapply token_ending_one; eauto). exact (No w y K E1 K1 E2 K2). }
      destruct (kind_eqb (el_kind x) TK_LINE_BREAK) eqn:Kx; cbn [negb]; [|apply NO; intros w y X; apply kind_eqb_eq in X; congruence].
      destruct (next_token x) as [w|] eqn:Ew; cbn [obind]; [|apply NO; intros ? ? _ X; discriminate X].
      destruct (kind_eqb (el_kind w) TK_WHITESPACE) eqn:Kw; cbn [negb]; [|apply NO; intros w' y _ [= <-] X; apply kind_eqb_eq in X; congruence].
      destruct (next_token w) as [y|] eqn:Ey; cbn [obind]; [|apply NO; intros w' ? _ [= <-] _ X; rewrite Ey in X; discriminate X].
      destruct (kind_eqb (el_kind y) TK_LINE_BREAK) eqn:Ky; cbn [negb]; [|apply NO; intros w' y' _ [= <-] _ X; rewrite Ey in X; injection X as <-; intros X; apply kind_eqb_eq in X; congruence].
      apply kind_eqb_eq in Kx, Kw, Ky. destruct (next_blank_line dbg src t errs x w y HP Ix Nx Kx Ew Kw Ey Ky) as [B Ee].
      exists [(el_start w, el_end w)]. split; [constructor; [intros []|constructor]|]. split; [|repeat constructor].
      intros p. cbn [In]. split.
      + intros [<-|[]]. split; [exact B|]. split; [exact Ix|]. split; [exact Nx|exact Ee].
      + intros [B' Te]. left. destruct (blank_line_next dbg src t errs p HP B') as (x' & w' & y' & Te' & _ & E1 & _ & -> & _).
        assert (x' = x) as -> by (eapply token_ending_one; eauto). rewrite Ew in E1. now injection E1 as <-.
    - intros e p (_ & _ & N & _). exact N.
    - intros e e' p [_ T1] [_ T2]. eapply token_ending_one; eauto. }
  destruct G as (xs & X1 & X2 & X3). exists xs. split; [exact X1|]. split; [|exact X3]. intros p. rewrite X2. split.
  - intros (x & _ & V & B & Te). split; [exact B|]. exists x. auto.
  - intros (B & x & Te & V). exists x. split; [apply Te|]. auto.
Qed.

(** * C63: line endings *)
(** The source has a carriage return and a line feed at byte [n]. *)
Definition crlf (src : text) (n : nat) : Prop := exists pre post, src = pre ++ [CR; LF] ++ post /\ blen pre = n.
(** The token of the tree that the byte [n] belongs to. *)
Definition token_over (t : tree) (n : nat) (x : elem) : Prop :=
  In x (elements t) /\ is_node (el_tree x) = false /\ el_start x <= n < el_end x.
Lemma token_over_one t n x y : token_over t n x -> token_over t n y -> x = y.
Proof.
  intros (Ix & Nx & Ex) (Iy & Ny & Ey). destruct (PropIndent.tokens_apart t x y Ix Iy Nx Ny) as [->|[A|A]]; [reflexivity|lia|lia].
Qed.
Lemma find_iter_from r : forall s skip off m, In m (find_iter r skip off s) -> off <= fst m.
Proof.
  induction s as [|c s IH]; intros skip off m H; [destruct H|]. cbn [find_iter] in H. destruct skip as [|k].
  - destruct (rlong r (c :: s)) as [[|k]|]; [| destruct H as [<-|H]; [cbn; lia|] |]; apply IH in H; lia.
  - apply IH in H. lia.
Qed.
Lemma find_iter_nodup r o : forall s skip off, NoDup (map (fun m : nat * nat => o + fst m) (find_iter r skip off s)).
Proof.
  induction s as [|c s IH]; intros skip off; [constructor|]. cbn [find_iter]. destruct skip as [|k]; [|apply IH].
  destruct (rlong r (c :: s)) as [[|k]|]; [apply IH| |apply IH]. cbn [map]. constructor; [|apply IH]. intros H. apply in_map_iff in H as (m & E & H).
  apply find_iter_from in H. pose proof (utf8_len_pos c). cbn [fst] in E. lia.
Qed.
Lemma crlf_in_tree dbg src t errs n : parse_src dbg src = OK (t, errs) -> crlf src n ->
  exists x, token_over t n x /\ el_kind x = TK_LINE_BREAK /\ PropLines.crlf_at (el_text x) (n - el_start x) (n - el_start x + 2).
Proof.
  intros P (pre & post & E & L). destruct (crlf_token src pre post E) as (t1 & k & t2 & a & b & Lx & K & T & O).
  change (t1 ++ k :: t2) with (t1 ++ [k] ++ t2) in Lx. destruct (trivia_in_tree dbg src t errs t1 [k] t2 P Lx) as (E1 & Et & E2 & Eq & F).
  { constructor; [now rewrite K|constructor]. }
  inversion F as [|x ? Et1 ? Fx F1]; subst. inversion F1; subst. destruct Fx as (X1 & X2 & X3). exists x. destruct (proj1 (in_tokens t x)) as [Ix Nx]; [rewrite Eq; apply in_elt|].
  split; [|split; [congruence|]].
  - split; [exact Ix|]. split; [exact Nx|]. rewrite el_end_text, X2, T, !blen_app. change (blen [CR; LF]) with 2. lia.
  - exists a, b. split; [now rewrite X2|]. split; [lia|reflexivity].
Qed.
Theorem C63_windows_line_endings_are_reported_exactly : forall dbg src t errs cf rules results,
  parse_src dbg src = OK (t, errs) -> incl rules RULE_DEFINITIONS -> NoDup (map rl_name rules) -> In rule_line_ending rules ->
  run_rules cf rules t = Done results -> cf_line_ending cf = UnixLF ->
  exactly results (txt "line-ending"%string)
    (fun n => crlf src n /\ exists x, token_over t n x /\ visible (txt "line-ending"%string) x)
    (fun n s => s = mkShown SWarning (Some (n, n + 2)) [((n, n + 2), [LF])]).
Proof.
  intros dbg src t errs cf rules results HP HI HN Hin HR HU. set (D := fun n s => _).
  assert (G : exactly results (rl_name rule_line_ending)
    (fun n => exists x, In x (elements t) /\ visible (rl_name rule_line_ending) x /\ (crlf src n /\ token_over t n x)) D).
  { apply (exact_token_rule cf rules t results HI HN HR rule_line_ending Hin (fun x n => crlf src n /\ token_over t n x) D).
    - reflexivity.
    - reflexivity.
    - intros ctx x Hc Ix Nx. cbn [rl_token rule_line_ending]. destruct (kind_eqb (el_kind x) TK_LINE_BREAK) eqn:Kx; cbn [negb].
      + rewrite Hc, HU. exists (map (fun m : nat * nat => el_start x + fst m) (find_iter (invalid_line_ending UnixLF) 0 0 (el_text x))).
        split; [apply find_iter_nodup|]. split.
        * intros n. rewrite in_map_iff. split.
          -- intros ([a b] & <- & H). apply (PropLines.find_unix_exact (length (el_text x)) (el_text x) 0 (le_n _) a b) in H. destruct H as (pre & post & E & L & _).
             change (el_text x = pre ++ [CR; LF] ++ post) in E.
             cbn [fst]. destruct (within_text t x (elements_within _ _ Ix)) as (u & v & Et & Lu). destruct (PropParser.C02_parse_lossless _ _ _ _ HP) as [_ Src].
             split; [|split; [exact Ix|split; [exact Nx|rewrite el_end_text, E, !blen_app; change (blen [CR; LF]) with 2; lia]]].
             exists (u ++ pre), (post ++ v). split; [|rewrite blen_app; lia]. rewrite <- Src, Et, E, <- !app_assoc. reflexivity.
          -- intros [C To]. destruct (crlf_in_tree dbg src t errs n HP C) as (x' & To' & _ & Cr). assert (x' = x) as -> by (eapply token_over_one; eauto).
             exists (n - el_start x, n - el_start x + 2). split; [cbn [fst]; destruct To as (_ & _ & To); lia|].
             apply (PropLines.find_unix_exact (length (el_text x)) (el_text x) 0 (le_n _)). exact Cr.
        * assert (Wd : forall m, In m (find_iter (invalid_line_ending UnixLF) 0 0 (el_text x)) -> snd m = fst m + 2).
          { intros [a b] H. apply (PropLines.find_unix_exact (length (el_text x)) (el_text x) 0 (le_n _) a b) in H. destruct H as (? & ? & _ & _ & ->). reflexivity. }
          revert Wd. generalize (find_iter (invalid_line_ending UnixLF) 0 0 (el_text x)) as l. induction l as [|m l IH]; intros Wd; [constructor|].
          cbn [map]. constructor; [|apply IH; intros; apply Wd; now right]. unfold D. rewrite (Wd m (or_introl eq_refl)), Nat.add_assoc. reflexivity.
      + exists []. split; [constructor|]. split; [|constructor]. intros n. split; [intros []|]. intros [C To].
        destruct (crlf_in_tree dbg src t errs n HP C) as (x' & To' & K & _). assert (x' = x) as -> by (eapply token_over_one; eauto). apply kind_eqb_eq in K. congruence.
    - intros e n (_ & _ & N & _). exact N.
    - intros e e' n [_ T1] [_ T2]. eapply token_over_one; eauto. }
  destruct G as (xs & X1 & X2 & X3). exists xs. split; [exact X1|]. split; [|exact X3]. intros n. rewrite X2. split.
  - intros (x & _ & V & B & Te). split; [exact B|]. exists x. auto.
  - intros (B & x & Te & V). exists x. split; [apply Te|]. auto.
Qed.

(** * C63: duplicates *)
Theorem C63_duplicates_are_reported_exactly : forall dbg src t errs cf rules results,
  parse_src dbg src = OK (t, errs) -> incl rules RULE_DEFINITIONS -> NoDup (map rl_name rules) -> run_rules cf rules t = Done results ->
  (In rule_block_duplicate rules ->
   map places (of_rule (txt "twig-block-duplicate"%string) results) = map (fun p => (Some (place (fst p)), [place (snd p)]))
     (duplicates [] (flat_map block_entry (filter (considered (txt "twig-block-duplicate"%string)) (elements t))))) /\
  (In rule_duplicate_id rules ->
   map places (of_rule (txt "html-duplicate-id"%string) results) = map (fun p => (Some (place (fst p)), [place (snd p)]))
     (duplicates [] (flat_map id_entry (filter (considered (txt "html-duplicate-id"%string)) (elements t))))).
Proof.
  intros dbg src t errs cf rules results HP HI HN HR. assert (Nt : is_node t = true).
  { destruct (PropParser.outcome dbg src) as [(cs & e & E' & _)|(q & E' & _)]; rewrite HP in E'; [injection E' as -> _; reflexivity|discriminate E']. }
  split; intros Hin.
  - pose proof (root_rule cf rules t results HI HN HR rule_block_duplicate Hin ltac:(reflexivity) ltac:(reflexivity)) as E.
    destruct (C36_duplicate_blocks_are_counted_exactly cf t Nt) as (rs & R1 & R2). rewrite R1 in E. apply done_inj in E. rewrite E in R2. exact R2.
  - pose proof (root_rule cf rules t results HI HN HR rule_duplicate_id Hin ltac:(reflexivity) ltac:(reflexivity)) as E.
    destruct (C36_duplicate_ids_are_counted_exactly cf t Nt) as (rs & R1 & R2). rewrite R1 in E. apply done_inj in E. rewrite E in R2. exact R2.
Qed.

(** With indentation by no spaces, a line that is as it should be is reported as well. *)
Definition no_indentation : config :=
  mkConfig [] UnixLF ISpace 0 true true QDouble QDouble [] [] [].
Theorem C63_only_wrong_indentation_is_reported_refuted :
  ~ (forall dbg src t errs cf rules results,
       parse_src dbg src = OK (t, errs) -> incl rules RULE_DEFINITIONS -> NoDup (map rl_name rules) -> In rule_indentation rules ->
       run_rules cf rules t = Done results -> forall r, In r results -> rs_rule r = txt "indentation"%string ->
       exists x, In x (elements t) /\ leading x <> wanted cf x /\ indentation_report cf x (show r)).
Proof.
  intros X. pose (src := txt "<p>
b
</p>"%string).
  destruct (parse_src true src) as [[t errs]| |] eqn:P; [|vm_compute in P; discriminate P|vm_compute in P; discriminate P].
  destruct (run_rules no_indentation [rule_indentation] t) as [results|] eqn:R; [|exfalso].
  - specialize (X true src t errs no_indentation [rule_indentation] results P).
    assert (E : exists r, results = [r] /\ rs_rule r = txt "indentation"%string).
    { vm_compute in P. injection P as <- _. vm_compute in R. injection R as <-. eexists. split; [reflexivity|]. vm_compute. reflexivity. }
    destruct E as (r & -> & Er). destruct (X) with (r := r) as (x & Hx & Lw & Rx).
    + intros y [<-|[]]. cbn. tauto.
    + constructor; [intros []|constructor].
    + now left.
    + exact R.
    + now left.
    + exact Er.
    + apply Lw. assert (A : forallb (fun x => text_eqb (leading x) (wanted no_indentation x) || negb (Nat.eqb (el_start x) 4)) (elements t) = true).
      { vm_compute in P. injection P as <- _. vm_compute. reflexivity. }
      rewrite forallb_forall in A. specialize (A x Hx). apply orb_true_iff in A as [A|A]; [now apply text_eqb_eq|]. exfalso.
      assert (S : option_map fst (sh_where (show r)) = Some 4).
      { vm_compute in P. injection P as <- _. vm_compute in R. injection R as <-. reflexivity. }
      unfold indentation_report in Rx. rewrite Rx in S. cbn [sh_where option_map fst] in S. injection S as S. rewrite S in A. discriminate A.
  - vm_compute in P. injection P as <- _. vm_compute in R. discriminate R.
Qed.

(** A line indented too much, a line indented too little and one that is right. *)
Example C63_case_indentation :
  says (txt "indentation"%string) (txt "<p>
      a
b
    c
</p>"%string)
  = [mkShown SHelp (Some (4, 10)) [(4, 10, txt "    "%string)]; mkShown SHelp (Some (12, 12)) [(12, 12, txt "    "%string)]].
Proof. vm_compute. reflexivity. Qed.
(** The spaces of a line of spaces; spaces behind text are not reported. *)
Example C63_case_blank_line :
  says (txt "whitespace-between-line-breaks"%string) (txt "a  
   
b"%string ++ [LF; 32; 9; 32; CR; LF]%N)
  = [mkShown SHelp (Some (4, 7)) [(4, 7, [])]; mkShown SHelp (Some (10, 13)) [(10, 13, [])]].
Proof. vm_compute. reflexivity. Qed.
Example C63_case_line_ending :
  says (txt "line-ending"%string) (txt "a"%string ++ [CR; LF; LF; CR; LF; CR; LF]%N ++ txt "b"%string)
  = [mkShown SWarning (Some (1, 3)) [(1, 3, [LF])]; mkShown SWarning (Some (4, 6)) [(4, 6, [LF])]; mkShown SWarning (Some (6, 8)) [(6, 8, [LF])]].
Proof. vm_compute. reflexivity. Qed.
Example C63_case_duplicates :
  map sh_where (says (txt "twig-block-duplicate"%string) (txt "{% block a %}{% endblock %}{% block b %}{% endblock %}{% block a %}{% endblock %}"%string)) = [Some (63, 64)].
Proof. vm_compute. reflexivity. Qed.

Print Assumptions C63_indentation_is_reported_exactly.
Print Assumptions C63_only_wrong_indentation_is_reported_refuted.
Print Assumptions C63_blank_lines_are_reported_exactly.
Print Assumptions C63_windows_line_endings_are_reported_exactly.
Print Assumptions C63_duplicates_are_reported_exactly.
