(** Property theorems about running the rules: C14, C15, C17. *)
From Coq Require Import NArith String Bool Lia Arith List Permutation.
Import ListNotations.
From Verif Require Import Text Kind LexerProofs ParserApi Machine TreeSpec Red Typed Rule Rules Check Process DefaultConfig RedFacts WalkSpec.
Local Open Scope list_scope.
Local Notation length := List.length (only parsing).

(** * What is meant *)

(** Nothing is checked in an error node or after a directive without names. *)
Definition run_hides (e : elem) : bool := error_node e || blanket (names_before e).
(** A directive naming the rule is directly before [e] or one of its ancestors. *)
Definition switched_off (rule : text) (e : elem) : bool :=
  existsb (fun a => lists rule (names_before a)) (lineage e).

(** The name of an HTML element: the first name token of its starting tag. *)
Definition tag_name (t : tree) : option text :=
  match find (fun c => is_node c && kind_eqb (tree_kind c) HTML_STARTING_TAG) (children t) with
  | Some s => option_map tree_text
      (find (fun c => negb (is_node c) &&
                      (kind_eqb (tree_kind c) TK_WORD || kind_eqb (tree_kind c) TK_TWIG_COMPONENT_NAME))
            (children s))
  | None => None
  end.
(** Strings, and the elements in which whitespace matters. *)
Definition keeps_whitespace (t : tree) : bool :=
  match t with
  | Node HTML_STRING_INNER _ | Node TWIG_LITERAL_STRING_INNER _ => true
  | Node HTML_TAG _ =>
    match tag_name t with
    | Some n => mem_text n [txt "pre"; txt "textarea"; txt "script"; txt "style"]%string
    | None => false
    end
  | _ => false
  end.
Definition protects (e : elem) : bool := keeps_whitespace (el_tree e).

(** What the rules [rules] have to say about [e] alone. *)
Definition checked (cf : config) (rules : list rule) (whitespace_flag : bool) (e : elem) : list result :=
  flat_map (fun r =>
    if switched_off (rl_name r) e then []
    else (if is_node (el_tree e) then rl_node r else rl_token r) (mkCtx cf whitespace_flag) e) rules.

(** * Lemmas *)
Lemma starting_tag_name_tree e : option_map el_text (starting_tag_name e)
  = option_map tree_text
      (find (fun c => negb (is_node c) &&
                      (kind_eqb (tree_kind c) TK_WORD || kind_eqb (tree_kind c) TK_TWIG_COMPONENT_NAME))
            (children (el_tree e))).
Proof.
  unfold starting_tag_name, child_tokens. rewrite find_filter, <- children_with_tokens_trees.
  induction (children_with_tokens e) as [|c l IH]; [reflexivity|]. cbn [find map].
  unfold el_kind at 1 2.
  destruct (negb (is_node (el_tree c)) && (kind_eqb (tree_kind (el_tree c)) TK_WORD || kind_eqb (tree_kind (el_tree c)) TK_TWIG_COMPONENT_NAME));
    [reflexivity|exact IH].
Qed.
Lemma protects_spec e : is_node (el_tree e) && is_sensitive e = protects e.
Proof.
  unfold protects, is_sensitive, is_sensitive_tag, cast, el_kind. destruct (el_tree e) as [k s|k cs] eqn:T; [reflexivity|].
  cbn [is_node andb tree_kind].
  assert (G : match html_tag_name e with Some n => sensitive_tag_name (el_text n) | None => false end
            = match tag_name (Node k cs) with
              | Some n => mem_text n [txt "pre"; txt "textarea"; txt "script"; txt "style"]%string
              | None => false end).
  { unfold html_tag_name, starting_tag, tag_name. rewrite <- T, <- support_child_tree.
    destruct (support_child HTML_STARTING_TAG e) as [x|]; cbn [obind option_map]; [|reflexivity].
    rewrite <- starting_tag_name_tree. destruct (starting_tag_name x); reflexivity. }
  destruct k; try reflexivity; exact G.
Qed.

Lemma remove_first_perm x : forall l m, Permutation l (x :: m) ->
  exists r, remove_first x l = Done r /\ Permutation r m.
Proof.
  assert (G : forall l, In x l -> exists r, remove_first x l = Done r /\ Permutation l (x :: r)).
  { induction l as [|y l IH]; intros H; [destruct H|]. cbn [remove_first].
    destruct (text_eqb y x) eqn:E.
    - apply text_eqb_eq in E. subst y. exists l. split; [reflexivity|apply Permutation_refl].
    - destruct H as [->|H]; [rewrite (proj2 (text_eqb_eq x x) eq_refl) in E; discriminate|].
      destruct (IH H) as (r & -> & P). exists (y :: r). split; [reflexivity|].
      eapply perm_trans; [apply perm_skip; exact P|apply perm_swap]. }
  intros l m P. destruct (G l) as (r & R & Q).
  - apply (Permutation_in _ (Permutation_sym P)). left. reflexivity.
  - exists r. split; [exact R|]. apply (Permutation_cons_inv (a := x)).
    eapply perm_trans; [apply Permutation_sym; exact Q|exact P].
Qed.
Lemma remove_all_perm : forall xs l m, Permutation l (xs ++ m) ->
  exists r, remove_all xs l = Done r /\ Permutation r m.
Proof.
  induction xs as [|x xs IH]; intros l m P; [exists l; split; [reflexivity|exact P]|].
  cbn [remove_all]. destruct (remove_first_perm x l (xs ++ m) P) as (r & -> & Q). apply IH. exact Q.
Qed.

Definition own_names (e : elem) : list text := match names_before e with Some l => l | None => [] end.
Definition names_above (e : elem) : list text := flat_map own_names (tl (lineage e)).

Lemma mem_text_perm x l m : Permutation l m -> mem_text x l = mem_text x m.
Proof.
  intros P. unfold mem_text. induction P as [|a l m P IH|a b l|l m n P1 IH1 P2 IH2]; cbn [existsb]; auto.
  - rewrite IH. reflexivity.
  - destruct (text_eqb a x), (text_eqb b x); reflexivity.
  - congruence.
Qed.
Lemma switched_off_names rule e : switched_off rule e = mem_text rule (flat_map own_names (lineage e)).
Proof.
  unfold switched_off, mem_text. rewrite existsb_flat_map. induction (lineage e) as [|a l IH]; [reflexivity|].
  cbn [existsb]. rewrite IH. f_equal. unfold lists, own_names, mem_text. destruct (names_before a); reflexivity.
Qed.

Section Run.
  Context (cf : config) (rules : list rule).
  Let wflag := flag run_hides protects.
  Let report (e : elem) : list result := checked cf rules (wflag e) e.

  Lemma run_element_checked e ignored : Permutation ignored (flat_map own_names (lineage e)) ->
    forall b, run_element cf rules ignored b e = checked cf rules b e.
  Proof.
    intros P b. unfold run_element, checked. induction rules as [|r rs IH]; [reflexivity|]. cbn [flat_map].
    rewrite IH. f_equal. rewrite switched_off_names, (mem_text_perm _ _ _ P). reflexivity.
  Qed.

  Lemma run_walk_elem : forall e s,
    reached run_hides e = true -> Permutation (ru_ignored s) (names_above e) ->
    ru_sensitive s = inherited run_hides protects e ->
    exists s', walk_elem true (run_enter cf rules) run_leave e s = Done s' /\
      Permutation (ru_ignored s') (names_above e) /\
      ru_sensitive s' = inherited run_hides protects e && negb (has_mark run_hides protects e) /\
      ru_results s' = ru_results s ++ flat_map report (filter (seen run_hides) (preorder_elem e)).
  Proof.
    apply (elem_induction (fun e => forall s,
      reached run_hides e = true -> Permutation (ru_ignored s) (names_above e) ->
      ru_sensitive s = inherited run_hides protects e ->
      exists s', walk_elem true (run_enter cf rules) run_leave e s = Done s' /\
        Permutation (ru_ignored s') (names_above e) /\
        ru_sensitive s' = inherited run_hides protects e && negb (has_mark run_hides protects e) /\
        ru_results s' = ru_results s ++ flat_map report (filter (seen run_hides) (preorder_elem e)))).
    intros e IH s R P F. rewrite walk_elem_unfold.
    assert (PL : forall ign, Permutation ign (names_above e) ->
                 Permutation (ign ++ own_names e) (flat_map own_names (lineage e))).
    { intros ign Q. rewrite (lineage_cons e). cbn [flat_map]. unfold names_above in Q. rewrite (lineage_cons e) in Q.
      cbn [tl] in Q. eapply perm_trans; [apply Permutation_app_comm|]. apply Permutation_app_head. exact Q. }
    (* leaving: [s2] is the state before it *)
    assert (LV : forall s2, Permutation (ru_ignored s2) (own_names e ++ names_above e) ->
      exists ign, run_leave s2 e = Done (mkRun ign (if protects e then false else ru_sensitive s2) (ru_results s2)) /\
                  Permutation ign (names_above e)).
    { intros s2 Q. unfold run_leave. rewrite directive_before_spec.
      change (match names_before e with Some names => names | None => [] end) with (own_names e).
      destruct (remove_all_perm _ _ _ Q) as (ign & -> & Q'). exists ign. rewrite protects_spec. split; [reflexivity|exact Q']. }
    destruct (seen run_hides e) eqn:SE.
    - (* visited *)
      assert (H : run_hides e = false).
      { rewrite seen_reached, R in SE. apply negb_true_iff. exact SE. }
      unfold run_hides in H. apply orb_false_iff in H. destruct H as [H1 H2].
      set (s1 := mkRun (ru_ignored s ++ own_names e) (wflag e) (ru_results s ++ report e)).
      assert (EN : run_enter cf rules s e = Done (s1, false)).
      { unfold run_enter. rewrite directive_before_spec.
        assert (W : wflag e = if protects e then true else ru_sensitive s).
        { unfold wflag. rewrite flag_unfold, F. destruct (protects e); reflexivity. }
        assert (K : (if is_node (el_tree e)
                     then if kind_eqb (el_kind e) ERROR
                          then Done (mkRun (ru_ignored s ++ own_names e) (ru_sensitive s) (ru_results s), true)
                          else Done (mkRun (ru_ignored s ++ own_names e) (if is_sensitive e then true else ru_sensitive s)
                                 (ru_results s ++ run_element cf rules (ru_ignored s ++ own_names e) (if is_sensitive e then true else ru_sensitive s) e), false)
                     else Done (mkRun (ru_ignored s ++ own_names e) (ru_sensitive s)
                                 (ru_results s ++ run_element cf rules (ru_ignored s ++ own_names e) (ru_sensitive s) e), false))
                    = Done (s1, false)).
        { rewrite !(run_element_checked e) by (apply PL; exact P). unfold s1, report.
          rewrite <- protects_spec in W. unfold error_node in H1.
          destruct (is_node (el_tree e)); cbn [andb] in *; [rewrite H1|]; rewrite <- W; reflexivity. }
        unfold own_names in K. unfold blanket in H2. destruct (names_before e) as [[|n l]|]; [discriminate|exact K|exact K]. }
      rewrite EN.
      assert (CH : forall l2 l1 s2, children_with_tokens e = l1 ++ l2 ->
        Permutation (ru_ignored s2) (flat_map own_names (lineage e)) ->
        ru_sensitive s2 = wflag e && negb (existsb (has_mark run_hides protects) l1) ->
        exists s3, walk_list true (run_enter cf rules) run_leave l2 s2 = Done s3 /\
          Permutation (ru_ignored s3) (flat_map own_names (lineage e)) /\
          ru_sensitive s3 = wflag e && negb (existsb (has_mark run_hides protects) (l1 ++ l2)) /\
          ru_results s3 = ru_results s2 ++ flat_map report (filter (seen run_hides) (flat_map preorder_elem l2))).
      { induction l2 as [|c l2 IHl]; intros l1 s2 C P2 F2.
        - exists s2. cbn [walk_list flat_map filter]. rewrite !app_nil_r. repeat split; assumption.
        - assert (Hc : In c (children_with_tokens e)) by (rewrite C; apply in_or_app; right; left; reflexivity).
          destruct (IH c Hc s2) as (s3 & W & P3 & F3 & R3).
          + rewrite (reached_child run_hides e c Hc). exact SE.
          + unfold names_above. rewrite (lineage_child e c Hc). exact P2.
          + rewrite (inherited_child run_hides protects e l1 c l2 C). exact F2.
          + cbn [walk_list orb]. rewrite W.
            destruct (IHl (l1 ++ [c]) s3) as (s4 & W4 & P4 & F4 & R4).
            * rewrite <- app_assoc. exact C.
            * unfold names_above in P3. rewrite (lineage_child e c Hc) in P3. exact P3.
            * rewrite F3, (inherited_child run_hides protects e l1 c l2 C), existsb_app. cbn [existsb].
              rewrite orb_false_r, negb_orb, andb_assoc. reflexivity.
            * exists s4. split; [exact W4|]. split; [exact P4|]. split.
              -- rewrite F4, <- app_assoc. reflexivity.
              -- rewrite R4, R3. cbn [flat_map]. rewrite filter_app, flat_map_app, app_assoc. reflexivity. }
      destruct (CH (children_with_tokens e) [] s1 eq_refl) as (s2 & W & P2 & F2 & R2).
      { apply PL. exact P. }
      { cbn [existsb negb]. rewrite andb_true_r. reflexivity. }
      rewrite W. destruct (LV s2) as (ign & -> & Q).
      { rewrite (lineage_cons e) in P2. unfold names_above. rewrite (lineage_cons e). exact P2. }
      eexists. split; [reflexivity|]. split; [exact Q|]. cbn [ru_sensitive ru_results]. split.
      + rewrite (has_mark_seen run_hides protects e R). cbn [app] in F2. rewrite F2. unfold wflag. rewrite flag_unfold.
        destruct (protects e); cbn [orb negb]; [rewrite andb_false_r; reflexivity|reflexivity].
      + rewrite R2. unfold s1. cbn [ru_results]. rewrite preorder_elem_unfold. cbn [filter]. rewrite SE.
        cbn [flat_map]. rewrite <- app_assoc. reflexivity.
    - (* skipped *)
      assert (H : run_hides e = true).
      { rewrite seen_reached, R in SE. apply negb_false_iff. exact SE. }
      assert (EN : exists s1, run_enter cf rules s e = Done (s1, true) /\
                ru_sensitive s1 = ru_sensitive s /\ ru_results s1 = ru_results s /\
                Permutation (ru_ignored s1) (own_names e ++ names_above e)).
      { unfold run_enter. rewrite directive_before_spec. unfold run_hides, error_node in H.
        pose proof (PL _ P) as P'. rewrite (lineage_cons e) in P'. cbn [flat_map] in P'.
        unfold names_above in *. rewrite (lineage_cons e) in *. cbn [tl] in *. unfold own_names in P' at 1 2 |- * at 1.
        destruct (names_before e) as [[|n l]|] eqn:NB; cbn [blanket] in H.
        - exists s. repeat split. cbn [app]. exact P.
        - rewrite orb_false_r in H. apply andb_true_iff in H. destruct H as [-> ->].
          eexists. split; [reflexivity|]. cbn [ru_sensitive ru_results ru_ignored]. repeat split. exact P'.
        - rewrite orb_false_r in H. apply andb_true_iff in H. destruct H as [-> ->].
          eexists. split; [reflexivity|]. cbn [ru_sensitive ru_results ru_ignored]. repeat split. exact P'. }
      destruct EN as (s1 & -> & E1 & E2 & E3). destruct (LV s1 E3) as (ign & -> & Q).
      eexists. split; [reflexivity|]. split; [exact Q|]. cbn [ru_sensitive ru_results]. split.
      + rewrite (has_mark_hidden run_hides protects e R SE), E1, F. destruct (protects e); cbn [negb];
          [rewrite andb_false_r|rewrite andb_true_r]; reflexivity.
      + rewrite (hidden_filter run_hides e SE). cbn [flat_map]. rewrite app_nil_r. exact E2.
  Qed.

  Lemma run_walk_spec t roots :
    exists s, run_walk cf rules t (mkRun [] false roots) = Done s /\ ru_ignored s = [] /\ ru_sensitive s = false /\
      ru_results s = roots ++ flat_map report (filter (seen run_hides) (elements t)).
  Proof.
    destruct (run_walk_elem (root_elem t) (mkRun [] false roots)) as (s & W & P & F & R).
    - reflexivity.
    - apply Permutation_refl.
    - reflexivity.
    - exists s. split; [exact W|]. split; [apply Permutation_nil, Permutation_sym; exact P|].
      split; [exact F|exact R].
  Qed.
End Run.

(** * C14 *)
(** The walk always ends normally, with nothing ignored, whatever the rules and the tree are.
    So running the rules can only fail in the check of a rule that looks at the whole tree. *)
Theorem C14_walk_never_crashes : forall cf rules t roots,
  exists s, run_walk cf rules t (mkRun [] false roots) = Done s /\ ru_ignored s = [] /\ ru_sensitive s = false.
Proof.
  intros cf rules t roots. destruct (run_walk_spec cf rules t roots) as (s & A & B & C & _).
  exists s. repeat split; assumption.
Qed.
Theorem C14_only_whole_tree_checks_can_fail : forall cf rules t,
  run_rules cf rules t = Crashed ->
  exists r, In r rules /\ rl_root r (mkCtx cf false) (root_elem t) = Crashed.
Proof.
  intros cf rules t E. unfold run_rules in E. destruct rules as [|r0 rs]; [discriminate|].
  remember (r0 :: rs) as rules. clear Heqrules.
  destruct (run_roots cf rules (root_elem t)) as [roots|] eqn:R.
  - destruct (run_walk_spec cf rules t roots) as (s & A & _). rewrite A in E. discriminate.
  - clear E. revert R. generalize (root_elem t). induction rules as [|r rules IH]; intros root R; [discriminate|].
    cbn [run_roots] in R. destruct (rl_root r (mkCtx cf false) root) as [a|] eqn:Q.
    + destruct (run_roots cf rules root) eqn:R'; [discriminate|]. destruct (IH root R') as (r' & I & H).
      exists r'. split; [right; exact I|exact H].
    + exists r. split; [left; reflexivity|exact Q].
Qed.

(** * C15 *)
(** The results are those of the whole-tree checks followed by what the rules say about each
    element outside error nodes and blanket directives, in document order; a rule is asked about
    an element exactly if no directive names it there.  ([flag] is the whitespace flag, see C17.) *)
Theorem C15_ignore_directives_have_exact_scope : forall cf rules t results,
  run_rules cf rules t = Done results -> rules <> [] ->
  exists roots flag,
    run_roots cf rules (root_elem t) = Done roots /\
    results = roots ++ flat_map (fun e => checked cf rules (flag e) e) (filter (seen run_hides) (elements t)).
Proof.
  intros cf rules t results E N. unfold run_rules in E. destruct rules as [|r0 rs]; [contradiction|].
  destruct (run_roots cf (r0 :: rs) (root_elem t)) as [roots|] eqn:R; [|discriminate].
  destruct (run_walk_spec cf (r0 :: rs) t roots) as (s & A & _ & _ & B). rewrite A in E. injection E as <-.
  exists roots, (flag run_hides protects). split; [reflexivity|exact B].
Qed.

(** * C17 *)
(** In full, the flag would be set exactly while anything in a string or in a pre, textarea, script
    or style element is visited.  But it is cleared when a string or such an element ends, even
    inside another one: *)
Theorem C17_whitespace_flag_partial : forall cf rules t results,
  run_rules cf rules t = Done results -> rules <> [] ->
  exists roots flag,
    run_roots cf rules (root_elem t) = Done roots /\
    results = roots ++ flat_map (fun e => checked cf rules (flag e) e) (filter (seen run_hides) (elements t)) /\
    (forall e, flag e = true <->
       exists a, In a (lineage e) /\ protects a = true /\ ~ cleared_within run_hides protects a e).
Proof.
  intros cf rules t results E N. unfold run_rules in E. destruct rules as [|r0 rs]; [contradiction|].
  destruct (run_roots cf (r0 :: rs) (root_elem t)) as [roots|] eqn:R; [|discriminate].
  destruct (run_walk_spec cf (r0 :: rs) t roots) as (s & A & _ & _ & B). rewrite A in E. injection E as <-.
  exists roots, (flag run_hides protects). split; [reflexivity|]. split; [exact B|].
  intros e. apply flag_spec.
Qed.

(** Refuted as it stands: the string in the attribute clears the flag, and the line-break rule
    wants to change whitespace in a pre element. *)
Definition pre_template : text := txt "<pre class=""x"">a{% block b %}c{% endblock %}</pre>"%string.
Definition inside_protected (t : tree) (s : suggestion) : Prop :=
  exists a, In a (elements t) /\ protects a = true /\ el_start a < sg_start s /\ sg_end s < el_end a.
Theorem C17_whitespace_is_protected_refuted :
  ~ (forall src t errs results, parse_file true src = Done (t, errs) ->
     run_rules default_config [rule_block_line_breaks] t = Done results ->
     forall r s, In r results -> In s (rs_suggestions r) -> ~ inside_protected t s).
Proof.
  intros H.
  assert (E : match parse_file true pre_template with
              | Done (t, _) =>
                match run_rules default_config [rule_block_line_breaks] t with
                | Done (r :: _) =>
                  match rs_suggestions r with
                  | s :: _ => existsb (fun a => protects a && Nat.ltb (el_start a) (sg_start s) && Nat.ltb (sg_end s) (el_end a))
                                      (elements t) = true
                  | [] => False
                  end
                | _ => False
                end
              | Crashed => False
              end) by (vm_compute; reflexivity).
  destruct (parse_file true pre_template) as [[t errs]|] eqn:P; [|exact E].
  destruct (run_rules default_config [rule_block_line_breaks] t) as [[|r rs]|] eqn:R; try exact E.
  destruct (rs_suggestions r) as [|s l] eqn:S; [exact E|].
  apply (H pre_template t errs (r :: rs) P R r s); [left; reflexivity|rewrite S; left; reflexivity|].
  apply existsb_exists in E. destruct E as (a & Ha & E). apply andb_true_iff in E. destruct E as [E E3].
  apply andb_true_iff in E. destruct E as [E1 E2]. exists a. apply Nat.ltb_lt in E2, E3. repeat split; assumption.
Qed.
(** Without the string the flag protects the element. *)
Example C17_case :
  match parse_file true (txt "<pre>a{% block b %}c{% endblock %}</pre>"%string) with
  | Done (t, _) => run_rules default_config [rule_block_line_breaks] t = Done []
  | Crashed => False
  end.
Proof. vm_compute. reflexivity. Qed.

(** A directive switches a rule off for one element and everything in it, nothing else. *)
Example C15_case :
  match parse_file true (txt "{# ludtwig-ignore twig-logic-and #}<p>{{ a && b }}</p>{{ c && d }}{# ludtwig-ignore #}{{ e && f }}"%string) with
  | Done (t, []) =>
    match run_rules default_config [rule_logic_and] t with
    | Done rs => map (fun r => map (fun s => (sg_start s, sg_end s)) (rs_suggestions r)) rs = [[(59, 61)]]
    | Crashed => False
    end
  | _ => False
  end.
Proof. vm_compute. reflexivity. Qed.
(** The whole-tree check of a rule can fail on a tree that no parser would build: an indented
    part that is skipped is still left. *)
Definition directive : tree := Node LUDTWIG_DIRECTIVE_IGNORE [].
Example C14_case :
  run_rules default_config [rule_indentation] (Node ROOT [directive; Node BODY []]) = Crashed /\
  exists rs, run_rules default_config [rule_logic_and] (Node ROOT [directive; Node BODY []]) = Done rs.
Proof. split; [vm_compute; reflexivity|eexists; vm_compute; reflexivity]. Qed.

Print Assumptions C14_walk_never_crashes.
Print Assumptions C14_only_whole_tree_checks_can_fail.
Print Assumptions C15_ignore_directives_have_exact_scope.
Print Assumptions C17_whitespace_flag_partial.
Print Assumptions C17_whitespace_is_protected_refuted.
