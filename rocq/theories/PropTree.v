(** Property theorems about the rules that look at the whole tree: C16, C36, and the indentation
    rule (C37 for trees that are well nested). *)
From Coq Require Import NArith String Bool Lia Arith List.
Import ListNotations.
From Verif Require Import Text Kind LexerProofs ParserApi Machine TreeSpec Red Typed Rule Rules Check Process DefaultConfig RedFacts WalkSpec.
Local Open Scope list_scope.
Local Notation length := List.length (only parsing).

(** * What is meant *)

(** These rules leave out error nodes and nodes after a directive without names. *)
Definition tree_hides (e : elem) : bool :=
  is_node (el_tree e) && (kind_eqb (el_kind e) ERROR || blanket (names_before_node e)).
(** A directive before the node names the rule. *)
Definition tree_marks (rule : text) (e : elem) : bool :=
  is_node (el_tree e) && lists rule (names_before_node e).

(** Where the rule is active, in the walk's own view: see [tree_ignored_spec]. *)
Definition tree_ignored (rule : text) : elem -> bool := flag tree_hides (tree_marks rule).
Definition considered (rule : text) (e : elem) : bool := seen tree_hides e && negb (tree_ignored rule e).

(** Which occurrences of a name are duplicates, and of what: the first one with the same name. *)
Fixpoint duplicates (before l : list (text * elem)) : list (elem * elem) :=
  match l with
  | [] => []
  | (n, x) :: r =>
    match find (fun p => text_eqb (fst p) n) before with Some p => [(x, snd p)] | None => [] end
    ++ duplicates (before ++ [(n, x)]) r
  end.

(** The blocks with their name tokens, the id attributes with their values. *)
Definition block_entry (e : elem) : list (text * elem) :=
  match cast TWIG_BLOCK e with
  | Some b => match block_name b with Some n => [(el_text n, n)] | None => [] end
  | None => []
  end.
Definition id_entry (e : elem) : list (text * elem) :=
  match cast HTML_ATTRIBUTE e with
  | Some a => match static_id a with Some v => [(el_text v, v)] | None => [] end
  | None => []
  end.

(** The places a result points to: itself and the other one. *)
Definition places (r : result) : option (nat * nat) * list (nat * nat) :=
  (match rs_primary r with Some n => Some (nt_start n, nt_end n) | None => None end,
   map (fun n => (nt_start n, nt_end n)) (rs_secondary r)).
Definition place (e : elem) : nat * nat := (el_start e, el_end e).

(** * Walks over nodes *)
Definition same_name (n : text) (p : text * elem) : bool := text_eqb (fst p) n.

Lemma ignore_enter_spec rule b e : is_node (el_tree e) = true ->
  ignore_enter rule b e = (tree_marks rule e || b, blanket (names_before_node e)).
Proof.
  intros N. unfold ignore_enter, tree_marks. rewrite prev_directive_spec, N. cbn [andb].
  destruct (names_before_node e) as [[|n l]|]; cbn [lists blanket]; [reflexivity| |reflexivity].
  destruct (mem_text rule (n :: l)); reflexivity.
Qed.
Lemma ignore_leave_spec rule b e : is_node (el_tree e) = true ->
  ignore_leave rule b e = if tree_marks rule e then false else b.
Proof.
  intros N. unfold ignore_leave, tree_marks. rewrite prev_directive_spec, N. cbn [andb].
  destruct (names_before_node e) as [l|]; reflexivity.
Qed.

(** No mark on tokens: what the node-only walk does not see does not matter. *)
Lemma token_has_no_mark hide mark e : is_node (el_tree e) = false -> mark e = false -> has_mark hide mark e = false.
Proof.
  intros N M. unfold has_mark. rewrite preorder_elem_unfold. unfold children_with_tokens.
  destruct (el_tree e) as [k s|]; [|discriminate]. cbn [existsb flat_map]. rewrite M. reflexivity.
Qed.

Section Duplicates.
  Context (rule : text) (visit : dup_state -> elem -> dup_state).
  Context (enter : dup_state -> elem -> out (dup_state * bool)).
  Let ignored := tree_ignored rule.

  (** What the two handlers have in common. *)
  Context (visit_token : forall s e, is_node (el_tree e) = false -> visit s e = s).
  Context (visit_flag : forall s e b,
    visit (mkDup (dp_table s) b (dp_results s)) e = mkDup (dp_table (visit s e)) b (dp_results (visit s e))).
  Context (enter_seen : forall s e, is_node (el_tree e) = true -> tree_hides e = false ->
    enter s e = Done (let s' := mkDup (dp_table s) (tree_marks rule e || dp_ignored s) (dp_results s) in
                      if tree_marks rule e || dp_ignored s then s' else visit s' e, false)).
  Context (enter_hidden : forall s e, is_node (el_tree e) = true -> tree_hides e = true ->
    exists b, enter s e = Done (mkDup (dp_table s) b (dp_results s), true) /\
              (b = dp_ignored s \/ tree_marks rule e = true)).

  Definition visit_all (l : list elem) (s : dup_state) : dup_state := fold_left visit l s.
  Lemma visit_all_flag : forall l s b,
    visit_all l (mkDup (dp_table s) b (dp_results s))
    = mkDup (dp_table (visit_all l s)) b (dp_results (visit_all l s)).
  Proof.
    induction l as [|e l IH]; intros s b; [reflexivity|]. cbn [visit_all fold_left].
    rewrite visit_flag. apply (IH (visit s e)).
  Qed.
  Lemma visit_all_app a b s : visit_all (a ++ b) s = visit_all b (visit_all a s).
  Proof. apply fold_left_app. Qed.
  Definition with_flag (b : bool) (s : dup_state) : dup_state := mkDup (dp_table s) b (dp_results s).

  Lemma dup_walk : forall e s, is_node (el_tree e) = true -> reached tree_hides e = true ->
    dp_ignored s = inherited tree_hides (tree_marks rule) e ->
    walk_elem false enter (duplicate_leave rule) e s
    = Done (with_flag (inherited tree_hides (tree_marks rule) e && negb (has_mark tree_hides (tree_marks rule) e))
              (visit_all (filter (considered rule) (preorder_elem e)) s)).
  Proof.
    apply (elem_induction (fun e => forall s, is_node (el_tree e) = true -> reached tree_hides e = true ->
      dp_ignored s = inherited tree_hides (tree_marks rule) e ->
      walk_elem false enter (duplicate_leave rule) e s
      = Done (with_flag (inherited tree_hides (tree_marks rule) e && negb (has_mark tree_hides (tree_marks rule) e))
                (visit_all (filter (considered rule) (preorder_elem e)) s)))).
    intros e IH s N R F. rewrite walk_elem_unfold.
    assert (FU : tree_ignored rule e = tree_marks rule e || dp_ignored s).
    { unfold tree_ignored. rewrite flag_unfold, F. reflexivity. }
    destruct (tree_hides e) eqn:H.
    - assert (SE : seen tree_hides e = false) by (rewrite seen_reached, R, H; reflexivity).
      destruct (enter_hidden s e N H) as (b & -> & Hb). unfold duplicate_leave.
      rewrite (ignore_leave_spec _ _ _ N), (has_mark_hidden _ _ e R SE). cbn [dp_table dp_ignored dp_results].
      assert (FE : filter (considered rule) (preorder_elem e) = []).
      { pose proof (hidden_filter tree_hides e SE) as G. unfold considered. revert G.
        induction (preorder_elem e) as [|x l IHl]; [reflexivity|]. cbn [filter].
        destruct (seen tree_hides x); [discriminate|exact IHl]. }
      rewrite FE. cbn [visit_all fold_left]. unfold with_flag. do 2 f_equal.
      destruct (tree_marks rule e); cbn [negb]; [rewrite andb_false_r; reflexivity|].
      rewrite andb_true_r, <- F. destruct Hb as [->|Hb]; [reflexivity|discriminate].
    - assert (SE : seen tree_hides e = true) by (rewrite seen_reached, R, H; reflexivity).
      rewrite (enter_seen s e N H). cbn zeta. rewrite <- FU.
      set (s1 := if tree_ignored rule e then mkDup (dp_table s) (tree_ignored rule e) (dp_results s)
                 else visit (mkDup (dp_table s) (tree_ignored rule e) (dp_results s)) e).
      assert (E1 : s1 = with_flag (tree_ignored rule e) (visit_all (filter (considered rule) [e]) s)).
      { unfold s1. cbn [filter]. unfold considered. rewrite SE. cbn [andb]. unfold ignored in *.
        destruct (tree_ignored rule e); cbn [negb visit_all fold_left]; [reflexivity|]. rewrite visit_flag. reflexivity. }
      assert (CH : forall l2 l1 s2, children_with_tokens e = l1 ++ l2 ->
        dp_ignored s2 = tree_ignored rule e && negb (existsb (has_mark tree_hides (tree_marks rule)) l1) ->
        walk_list false enter (duplicate_leave rule) l2 s2
        = Done (with_flag (tree_ignored rule e && negb (existsb (has_mark tree_hides (tree_marks rule)) (l1 ++ l2)))
                  (visit_all (filter (considered rule) (flat_map preorder_elem l2)) s2))).
      { induction l2 as [|c l2 IHl]; intros l1 s2 C F2.
        - cbn [walk_list flat_map filter visit_all fold_left]. rewrite app_nil_r, <- F2. destruct s2; reflexivity.
        - assert (Hc : In c (children_with_tokens e)) by (rewrite C; apply in_or_app; right; left; reflexivity).
          cbn [walk_list orb flat_map]. rewrite filter_app, visit_all_app.
          destruct (is_node (el_tree c)) eqn:Nc.
          + rewrite (IH c Hc s2 Nc).
            2: rewrite (reached_child tree_hides e c Hc); exact SE.
            2: rewrite (inherited_child tree_hides (tree_marks rule) e l1 c l2 C); exact F2.
            rewrite (IHl (l1 ++ [c])).
            2: rewrite <- app_assoc; exact C.
            2: { cbn [with_flag dp_ignored]. rewrite (inherited_child tree_hides (tree_marks rule) e l1 c l2 C), existsb_app.
                 cbn [existsb]. rewrite orb_false_r, negb_orb, andb_assoc. reflexivity. }
            rewrite <- app_assoc. cbn [app]. unfold with_flag at 2. rewrite visit_all_flag. reflexivity.
          + assert (T : preorder_elem c = [c]).
            { rewrite preorder_elem_unfold. unfold children_with_tokens. destruct (el_tree c); [reflexivity|discriminate]. }
            rewrite (IHl (l1 ++ [c])).
            2: rewrite <- app_assoc; exact C.
            2: { rewrite F2, existsb_app. cbn [existsb]. rewrite token_has_no_mark; [|exact Nc|unfold tree_marks; rewrite Nc; reflexivity].
                 rewrite !orb_false_r. reflexivity. }
            rewrite <- app_assoc. cbn [app]. rewrite T. cbn [filter].
            destruct (considered rule c); cbn [visit_all fold_left]; [rewrite visit_token by exact Nc|]; reflexivity. }
      rewrite (CH (children_with_tokens e) [] s1 eq_refl).
      2: { rewrite E1. cbn [with_flag dp_ignored existsb negb]. rewrite andb_true_r. reflexivity. }
      unfold duplicate_leave. rewrite (ignore_leave_spec _ _ _ N). cbn [with_flag dp_table dp_ignored dp_results app].
      rewrite (has_mark_seen tree_hides (tree_marks rule) e R), preorder_elem_unfold.
      change (e :: flat_map preorder_elem (children_with_tokens e))
        with ([e] ++ flat_map preorder_elem (children_with_tokens e)).
      rewrite filter_app, visit_all_app.
      rewrite E1. unfold with_flag at 1 2. rewrite visit_all_flag. cbn [dp_table dp_results].
      unfold with_flag. do 2 f_equal. rewrite FU, F.
      destruct (tree_marks rule e); cbn [orb negb]; [rewrite andb_false_r; reflexivity|reflexivity].
  Qed.
End Duplicates.

Section Reports.
  Context (visit : dup_state -> elem -> dup_state) (entry : elem -> list (text * elem)) (named : elem -> option elem).
  Context (report : elem -> elem -> result).
  Context (report_places : forall x first, places (report x first) = (Some (place x), [place first])).
  Context (visit_spec : forall s e,
    (entry e = [] /\ visit s e = s) \/
    exists a x, entry e = [(el_text x, x)] /\ named a = Some x /\
      visit s e = match (let? a0 := lookup (el_text x) (dp_table s) in named a0) with
                  | Some first => mkDup (dp_table s) (dp_ignored s) (dp_results s ++ [report x first])
                  | None => mkDup ((el_text x, a) :: dp_table s) (dp_ignored s) (dp_results s)
                  end).

  Lemma find_app {A} (f : A -> bool) a b : find f (a ++ b) = match find f a with Some x => Some x | None => find f b end.
  Proof. induction a as [|x a IH]; [reflexivity|]. cbn [app find]. destruct (f x); [reflexivity|exact IH]. Qed.

  Lemma visit_all_reports : forall l s before,
    (forall n, (let? a0 := lookup n (dp_table s) in named a0) = option_map snd (find (fun p => text_eqb (fst p) n) before)) ->
    map places (dp_results (visit_all visit l s))
    = map places (dp_results s)
      ++ map (fun p => (Some (place (fst p)), [place (snd p)])) (duplicates before (flat_map entry l)).
  Proof.
    induction l as [|e l IH]; intros s before T; [cbn; rewrite app_nil_r; reflexivity|].
    cbn [visit_all fold_left flat_map]. destruct (visit_spec s e) as [[E V]|(a & x & E & Na & V)].
    - rewrite V, E. cbn [app]. apply IH. exact T.
    - rewrite E. cbn [app duplicates]. rewrite V. rewrite T. rewrite map_app.
      destruct (find (fun p => text_eqb (fst p) (el_text x)) before) as [first|] eqn:Fd; cbn [option_map].
      + rewrite (IH _ (before ++ [(el_text x, x)])).
        * cbn [dp_results map]. rewrite map_app, <- app_assoc. cbn [map app fst snd]. rewrite report_places. reflexivity.
        * intros n. cbn [dp_table]. rewrite T, find_app. cbn [find fst].
          destruct (find (fun p => text_eqb (fst p) n) before) eqn:Fn; [reflexivity|].
          destruct (text_eqb (el_text x) n) eqn:Q; [|reflexivity]. apply text_eqb_eq in Q. subst n. congruence.
      + rewrite (IH _ (before ++ [(el_text x, x)])).
        * reflexivity.
        * intros n. cbn [dp_table lookup]. rewrite find_app. cbn [find fst].
          destruct (text_eqb (el_text x) n) eqn:Q.
          -- apply text_eqb_eq in Q. subst n. rewrite Fd. cbn [obind option_map snd]. exact Na.
          -- rewrite T. destruct (find (fun p => text_eqb (fst p) n) before); reflexivity.
  Qed.
End Reports.

(** * C36 *)
Definition block_report (x first : elem) : result :=
  secondary_note (el_start first) (el_end first) (txt "first defined here"%string)
    (primary_note (el_start x) (el_end x) (txt "duplicate block '"%string ++ el_text x ++ txt "'"%string)
      (create_result (txt "twig-block-duplicate"%string) SError (txt "block name duplicate"%string))).
Definition id_report (x first : elem) : result :=
  secondary_note (el_start first) (el_end first) (txt "first defined here"%string)
    (primary_note (el_start x) (el_end x) (txt "duplicate id '"%string ++ el_text x ++ txt "'"%string)
      (create_result (txt "html-duplicate-id"%string) SWarning (txt "duplicate HTML element id attribute value"%string))).

Lemma static_id_inner a v : static_id a = Some v -> attribute_inner a = Some v.
Proof.
  unfold static_id. destruct (attribute_name a) as [n|]; cbn [obind]; [|discriminate].
  destruct (negb _); [discriminate|]. destruct (attribute_inner a) as [i|]; cbn [obind]; [|discriminate].
  destruct (child_nodes i); [|discriminate]. destruct (el_text i); [discriminate|]. intros [= ->]. reflexivity.
Qed.

Theorem C36_duplicate_blocks_are_counted_exactly : forall cf t, is_node t = true -> exists results,
  rl_root rule_block_duplicate (mkCtx cf false) (root_elem t) = Done results /\
  map places results = map (fun p => (Some (place (fst p)), [place (snd p)]))
    (duplicates [] (flat_map block_entry (filter (considered (txt "twig-block-duplicate"%string)) (elements t)))).
Proof.
  intros cf t Nt. cbn [rl_root rule_block_duplicate]. unfold duplicate_root. cbn [root_elem el_tree el_off el_path].
  change (walk false block_duplicate_enter (duplicate_leave (txt "twig-block-duplicate"%string)) t 0 [] (mkDup [] false []))
    with (walk_elem false block_duplicate_enter (duplicate_leave (txt "twig-block-duplicate"%string)) (root_elem t) (mkDup [] false [])).
  assert (CT : forall e, cast TWIG_BLOCK e = None \/ (cast TWIG_BLOCK e = Some e /\ is_node (el_tree e) = true /\ el_kind e = TWIG_BLOCK)).
  { intros e. unfold cast. destruct (is_node (el_tree e)); cbn [andb]; [|left; reflexivity].
    destruct (kind_eqb (el_kind e) TWIG_BLOCK) eqn:K; [right|left; reflexivity].
    repeat split. apply kind_eqb_eq. exact K. }
  assert (VF : forall s e b, block_duplicate_visit (mkDup (dp_table s) b (dp_results s)) e
                             = mkDup (dp_table (block_duplicate_visit s e)) b (dp_results (block_duplicate_visit s e))).
  { intros s e b. unfold block_duplicate_visit. destruct (let? b0 := cast TWIG_BLOCK e in _) as [[a n]|]; [|reflexivity].
    cbn [dp_table dp_results dp_ignored]. destruct (let? b0 := lookup _ _ in _); reflexivity. }
  rewrite (dup_walk (txt "twig-block-duplicate"%string) block_duplicate_visit); [| | | | |exact Nt|reflexivity|reflexivity].
  - eexists. split; [reflexivity|]. cbn [with_flag dp_results].
    rewrite (visit_all_reports block_duplicate_visit block_entry block_name block_report) with (before := []); [reflexivity| | |].
    + reflexivity.
    + intros s e. unfold block_entry, block_duplicate_visit. destruct (CT e) as [->|[-> _]]; cbn [obind]; [left; split; reflexivity|].
      destruct (block_name e) as [x|] eqn:B; cbn [obind]; [right|left; split; reflexivity].
      exists e, x. split; [reflexivity|]. split; [exact B|reflexivity].
    + reflexivity.
  - intros s e N. unfold block_duplicate_visit, cast. rewrite N. reflexivity.
  - exact VF.
  - intros s e N H. unfold block_duplicate_enter. rewrite (ignore_enter_spec _ _ _ N).
    unfold tree_hides in H. rewrite N in H. cbn [andb] in H. apply orb_false_iff in H. destruct H as [-> ->].
    destruct (tree_marks _ e || dp_ignored s); reflexivity.
  - intros s e N H. unfold block_duplicate_enter. rewrite (ignore_enter_spec _ _ _ N).
    unfold tree_hides in H. rewrite N in H. cbn [andb] in H. exists (tree_marks (txt "twig-block-duplicate"%string) e || dp_ignored s).
    split; [|destruct (tree_marks _ e); [right|left]; reflexivity].
    destruct (blanket (names_before_node e)); [reflexivity|]. rewrite orb_false_r in H. rewrite H.
    destruct (tree_marks _ e || dp_ignored s); [reflexivity|].
    unfold block_duplicate_visit. destruct (CT e) as [->|(_ & _ & K)]; [reflexivity|].
    rewrite K in H. discriminate.
Qed.

Theorem C36_duplicate_ids_are_counted_exactly : forall cf t, is_node t = true -> exists results,
  rl_root rule_duplicate_id (mkCtx cf false) (root_elem t) = Done results /\
  map places results = map (fun p => (Some (place (fst p)), [place (snd p)]))
    (duplicates [] (flat_map id_entry (filter (considered (txt "html-duplicate-id"%string)) (elements t)))).
Proof.
  intros cf t Nt. cbn [rl_root rule_duplicate_id]. unfold duplicate_root. cbn [root_elem el_tree el_off el_path].
  change (walk false duplicate_id_enter (duplicate_leave (txt "html-duplicate-id"%string)) t 0 [] (mkDup [] false []))
    with (walk_elem false duplicate_id_enter (duplicate_leave (txt "html-duplicate-id"%string)) (root_elem t) (mkDup [] false [])).
  assert (VF : forall s e b, duplicate_id_visit (mkDup (dp_table s) b (dp_results s)) e
                             = mkDup (dp_table (duplicate_id_visit s e)) b (dp_results (duplicate_id_visit s e))).
  { intros s e b. unfold duplicate_id_visit. destruct (let? b0 := cast HTML_ATTRIBUTE e in _) as [[a n]|]; [|reflexivity].
    cbn [dp_table dp_results dp_ignored]. destruct (let? b0 := lookup _ _ in _); reflexivity. }
  rewrite (dup_walk (txt "html-duplicate-id"%string) duplicate_id_visit); [| | | | |exact Nt|reflexivity|reflexivity].
  - eexists. split; [reflexivity|]. cbn [with_flag dp_results].
    rewrite (visit_all_reports duplicate_id_visit id_entry attribute_inner id_report) with (before := []); [reflexivity| | |].
    + reflexivity.
    + intros s e. unfold id_entry, duplicate_id_visit. destruct (cast HTML_ATTRIBUTE e) as [a|]; cbn [obind]; [|left; split; reflexivity].
      destruct (static_id a) as [x|] eqn:B; cbn [obind]; [right|left; split; reflexivity].
      exists a, x. split; [reflexivity|]. split; [apply static_id_inner; exact B|reflexivity].
    + reflexivity.
  - intros s e N. unfold duplicate_id_visit, cast. rewrite N. reflexivity.
  - exact VF.
  - intros s e N H. unfold duplicate_id_enter. rewrite (ignore_enter_spec _ _ _ N).
    unfold tree_hides in H. rewrite N in H. cbn [andb] in H. apply orb_false_iff in H. destruct H as [-> ->].
    destruct (tree_marks _ e || dp_ignored s); reflexivity.
  - intros s e N H. unfold duplicate_id_enter. rewrite (ignore_enter_spec _ _ _ N).
    unfold tree_hides in H. rewrite N in H. cbn [andb] in H.
    destruct (kind_eqb (el_kind e) ERROR).
    + exists (dp_ignored s). split; [destruct s; reflexivity|left; reflexivity].
    + cbn [orb] in H. rewrite H. exists (tree_marks (txt "html-duplicate-id"%string) e || dp_ignored s).
      split; [reflexivity|destruct (tree_marks _ e); [right|left]; reflexivity].
Qed.

(** Every occurrence but the first is reported once. *)
Lemma duplicates_count n : forall l before, Forall (fun p => fst p = el_text (snd p)) l ->
  length (filter (fun p => text_eqb (el_text (fst p)) n) (duplicates before l))
  = (if existsb (fun p => text_eqb (fst p) n) before then fun k => k else pred)
      (length (filter (fun p => text_eqb (fst p) n) l)).
Proof.
  induction l as [|[m x] l IH]; intros before A.
  - cbn. destruct (existsb _ before); reflexivity.
  - inversion A as [|? ? Q A']. cbn [fst snd] in Q.
    cbn [duplicates filter fst]. rewrite filter_app, app_length, IH by exact A'. rewrite existsb_app.
    cbn [existsb fst]. rewrite orb_false_r.
    destruct (text_eqb m n) eqn:M.
    + apply text_eqb_eq in M. rewrite M in Q |- *. rewrite orb_true_r.
      destruct (existsb (fun p => text_eqb (fst p) n) before) eqn:B.
      * destruct (find (fun p => text_eqb (fst p) n) before) as [p|] eqn:Fd.
        -- cbn [filter fst]. rewrite <- Q, (proj2 (text_eqb_eq n n) eq_refl). cbn [length]. reflexivity.
        -- exfalso. apply existsb_exists in B. destruct B as (p & Hp & B).
           pose proof (find_none _ _ Fd p Hp) as G. cbn beta in G. congruence.
      * destruct (find (fun p => text_eqb (fst p) n) before) as [p|] eqn:Fd.
        -- apply find_some in Fd. exfalso. assert (Hx : existsb (fun p => text_eqb (fst p) n) before = true); [|congruence].
           apply existsb_exists. exists p. exact Fd.
        -- cbn [filter length]. reflexivity.
    + rewrite orb_false_r. destruct (find (fun p => text_eqb (fst p) m) before) as [p|]; cbn [filter fst]; [|reflexivity].
      rewrite <- Q, M. reflexivity.
Qed.

Lemma entries_named (entry : elem -> list (text * elem)) : (forall e, Forall (fun p : text * elem => fst p = el_text (snd p)) (entry e)) ->
  forall l, Forall (fun p => fst p = el_text (snd p)) (flat_map entry l).
Proof. intros H l. induction l as [|e l IH]; [constructor|]. cbn [flat_map]. apply Forall_app. split; [apply H|exact IH]. Qed.
Theorem C36_each_further_occurrence_is_reported_once : forall (entry : elem -> list (text * elem)) n l, entry = block_entry \/ entry = id_entry ->
  length (filter (fun p => text_eqb (el_text (fst p)) n) (duplicates [] (flat_map entry l)))
  = pred (length (filter (fun p => text_eqb (fst p) n) (flat_map entry l))).
Proof.
  intros entry n l E. apply (duplicates_count n (flat_map entry l) []). apply entries_named.
  destruct E as [-> | ->]; intros e.
  - unfold block_entry. destruct (cast TWIG_BLOCK e) as [b|]; [|constructor].
    destruct (block_name b); repeat constructor.
  - unfold id_entry. destruct (cast HTML_ATTRIBUTE e) as [b|]; [|constructor].
    destruct (static_id b); repeat constructor.
Qed.

(** * The indentation rule *)
Section Indentation.
  Context (ctx : context).
  Let name : text := txt "indentation"%string.
  Let ib : bool := indent_children_of_blocks (cx_config ctx).

  (** How deep an element is nested, and how far attributes are aligned. *)
  Definition nesting (e : elem) : nat := length (filter (indents ib) (tl (lineage e))).
  Definition alignment (e : elem) : nat := list_sum (map substeps_of (tl (lineage e))).
  (** Inside a pre, textarea, script or style element, in the walk's view. *)
  Definition indent_protected : elem -> bool := flag tree_hides is_sensitive_tag.

  (** What is reported for the visited elements [l], when the last token was a line break ([lb]). *)
  Fixpoint line_results (lb : bool) (l : list elem) : list result :=
    match l with
    | [] => []
    | x :: r =>
      if is_node (el_tree x) then line_results lb r
      else if kind_eqb (el_kind x) TK_LINE_BREAK then line_results true r
      else (if lb && negb (tree_ignored name x) && negb (indent_protected x)
            then handle_first_token_in_line ctx x (nesting x) (alignment x) else [])
           ++ line_results false r
    end.
  Fixpoint line_after (lb : bool) (l : list elem) : bool :=
    match l with
    | [] => lb
    | x :: r => line_after (if is_node (el_tree x) then lb else kind_eqb (el_kind x) TK_LINE_BREAK) r
    end.
  Lemma line_results_app : forall a b lb, line_results lb (a ++ b) = line_results lb a ++ line_results (line_after lb a) b.
  Proof.
    induction a as [|x a IH]; intros b lb; [reflexivity|]. cbn [app line_results line_after].
    destruct (is_node (el_tree x)); [apply IH|]. destruct (kind_eqb (el_kind x) TK_LINE_BREAK); [apply IH|].
    rewrite IH, app_assoc. reflexivity.
  Qed.
  Lemma line_after_app : forall a b lb, line_after lb (a ++ b) = line_after (line_after lb a) b.
  Proof. induction a as [|x a IH]; intros b lb; [reflexivity|]. cbn [app line_after]. apply IH. Qed.

  (** The tree is well nested: no skipped node adds indentation. *)
  Definition well_nested (e : elem) : Prop :=
    forall x, In x (preorder_elem e) -> reached tree_hides x = true -> tree_hides x = true ->
              indents ib x = false /\ substeps_of x = 0.

  Lemma lineage_is_node e x : In x (tl (lineage e)) -> is_node (el_tree x) = true.
  Proof.
    rewrite lineage_cons. cbn [tl]. unfold parent. destruct e as [t off p]. cbn [el_path].
    assert (G : forall p off t, is_node t = true -> In x (lineage (mkElem t off p)) -> is_node (el_tree x) = true).
    { clear. induction p as [|c p IH]; intros off t N H; rewrite lineage_cons in H; cbn [parent el_path] in H.
      - destruct H as [<-|[]]. exact N.
      - destruct H as [<-|H]; [exact N|]. eapply IH; [|exact H]. reflexivity. }
    destruct p as [|c p]; [intros []|]. apply G. reflexivity.
  Qed.

  Lemma is_sensitive_tag_node e : is_node (el_tree e) = false -> is_sensitive_tag e = false.
  Proof. unfold is_sensitive_tag, cast. intros ->. reflexivity. Qed.

  Lemma indent_walk : forall e s, well_nested e -> reached tree_hides e = true ->
    in_level s = nesting e -> in_substeps s = alignment e ->
    in_ignored s = inherited tree_hides (tree_marks name) e ->
    in_sensitive s = inherited tree_hides is_sensitive_tag e ->
    walk_elem true (indent_enter ctx) (indent_leave ctx) e s
    = Done (mkIndent (line_after (in_line_break s) (filter (seen tree_hides) (preorder_elem e)))
              (nesting e) (alignment e)
              (inherited tree_hides is_sensitive_tag e && negb (has_mark tree_hides is_sensitive_tag e))
              (inherited tree_hides (tree_marks name) e && negb (has_mark tree_hides (tree_marks name) e))
              (in_results s ++ line_results (in_line_break s) (filter (seen tree_hides) (preorder_elem e)))).
  Proof.
    apply (elem_induction (fun e => forall s, well_nested e -> reached tree_hides e = true ->
      in_level s = nesting e -> in_substeps s = alignment e ->
      in_ignored s = inherited tree_hides (tree_marks name) e ->
      in_sensitive s = inherited tree_hides is_sensitive_tag e ->
      walk_elem true (indent_enter ctx) (indent_leave ctx) e s
      = Done (mkIndent (line_after (in_line_break s) (filter (seen tree_hides) (preorder_elem e)))
                (nesting e) (alignment e)
                (inherited tree_hides is_sensitive_tag e && negb (has_mark tree_hides is_sensitive_tag e))
                (inherited tree_hides (tree_marks name) e && negb (has_mark tree_hides (tree_marks name) e))
                (in_results s ++ line_results (in_line_break s) (filter (seen tree_hides) (preorder_elem e)))))).
    intros e IH s W R L A I S. rewrite walk_elem_unfold.
    assert (FI : tree_ignored name e = tree_marks name e || in_ignored s) by (unfold tree_ignored; rewrite flag_unfold, I; reflexivity).
    assert (FS : indent_protected e = is_sensitive_tag e || in_sensitive s) by (unfold indent_protected; rewrite flag_unfold, S; reflexivity).
    destruct (is_node (el_tree e)) eqn:N.
    2: { (* token *)
      assert (H : tree_hides e = false) by (unfold tree_hides; rewrite N; reflexivity).
      assert (M : tree_marks name e = false) by (unfold tree_marks; rewrite N; reflexivity).
      assert (T : is_sensitive_tag e = false) by (apply is_sensitive_tag_node; exact N).
      rewrite M in FI. rewrite T in FS. cbn [orb] in FI, FS.
      assert (C : children_with_tokens e = []).
      { unfold children_with_tokens. destruct (el_tree e); [reflexivity|discriminate]. }
      rewrite !token_has_no_mark by assumption. cbn [negb]. rewrite !andb_true_r, <- I, <- S.
      assert (SE : seen tree_hides e = true) by (rewrite seen_reached, R, H; reflexivity).
      rewrite preorder_elem_unfold, C. cbn [flat_map filter]. rewrite SE. cbn [line_after line_results]. rewrite N.
      unfold indent_enter, indent_leave. rewrite N. cbn [walk_list].
      destruct (kind_eqb (el_kind e) TK_LINE_BREAK); [rewrite app_nil_r, <- L, <- A; reflexivity|].
      rewrite app_nil_r, <- L, <- A. rewrite FI, FS.
      rewrite (andb_comm (negb (in_ignored s)) (in_line_break s)). reflexivity. }
    destruct (tree_hides e) eqn:H.
    - (* skipped *)
      assert (SE : seen tree_hides e = false) by (rewrite seen_reached, R, H; reflexivity).
      destruct (W e (preorder_self e) R H) as [W1 W2].
      rewrite (hidden_filter tree_hides e SE), !(has_mark_hidden _ _ e R SE).
      cbn [line_after line_results]. rewrite app_nil_r.
      assert (EN : exists b, indent_enter ctx s e
                 = Done (mkIndent (in_line_break s) (in_level s) (in_substeps s) (in_sensitive s) b (in_results s), true)
                 /\ (b = in_ignored s \/ tree_marks name e = true)).
      { unfold indent_enter. rewrite N. unfold tree_hides in H. rewrite N in H. cbn [andb] in H.
        fold name. rewrite (ignore_enter_spec _ _ _ N). destruct (kind_eqb (el_kind e) ERROR).
        - exists (in_ignored s). split; [destruct s; reflexivity|left; reflexivity].
        - cbn [orb] in H. rewrite H. exists (tree_marks name e || in_ignored s).
          split; [reflexivity|destruct (tree_marks name e); [right|left]; reflexivity]. }
      destruct EN as (b & -> & Hb). unfold indent_leave. rewrite N. fold ib. rewrite W1, W2.
      cbn [in_level in_substeps in_sensitive in_ignored in_line_break in_results].
      unfold checked_sub. cbn [Nat.leb]. rewrite Nat.sub_0_r, L, A. fold name. rewrite (ignore_leave_spec _ _ _ N), S.
      do 2 f_equal.
      + destruct (is_sensitive_tag e); cbn [negb]; [rewrite andb_false_r|rewrite andb_true_r]; reflexivity.
      + destruct (tree_marks name e); cbn [negb]; [rewrite andb_false_r; reflexivity|rewrite andb_true_r].
        destruct Hb as [->|Hb]; [exact I|discriminate].
    - (* visited *)
      assert (SE : seen tree_hides e = true) by (rewrite seen_reached, R, H; reflexivity).
      set (L1 := (if indents ib e then 1 else 0) + nesting e).
      set (A1 := substeps_of e + alignment e).
      assert (EN : indent_enter ctx s e
                 = Done (mkIndent (in_line_break s) L1 A1 (indent_protected e) (tree_ignored name e) (in_results s), false)).
      { unfold indent_enter. rewrite N. pose proof H as H'. unfold tree_hides in H'. rewrite N in H'. cbn [andb] in H'.
        apply orb_false_iff in H'. destruct H' as [H1 H2]. rewrite H1. fold name ib.
        rewrite (ignore_enter_spec _ _ _ N), H2, FI, FS, L, A. unfold L1, A1. do 2 f_equal.
        f_equal; [destruct (indents ib e); reflexivity|lia]. }
      rewrite EN.
      assert (NC : forall c, In c (children_with_tokens e) -> nesting c = L1 /\ alignment c = A1).
      { intros c Hc. unfold nesting, alignment, L1, A1. rewrite (lineage_child e c Hc). cbn [tl].
        rewrite (lineage_cons e). cbn [filter map tl]. unfold nesting, alignment. rewrite (lineage_cons e). cbn [tl].
        destruct (indents ib e); cbn; split; reflexivity. }
      assert (CH : forall l2 l1 s2, children_with_tokens e = l1 ++ l2 ->
        in_level s2 = L1 -> in_substeps s2 = A1 ->
        in_ignored s2 = tree_ignored name e && negb (existsb (has_mark tree_hides (tree_marks name)) l1) ->
        in_sensitive s2 = indent_protected e && negb (existsb (has_mark tree_hides is_sensitive_tag) l1) ->
        walk_list true (indent_enter ctx) (indent_leave ctx) l2 s2
        = Done (mkIndent (line_after (in_line_break s2) (filter (seen tree_hides) (flat_map preorder_elem l2))) L1 A1
                  (indent_protected e && negb (existsb (has_mark tree_hides is_sensitive_tag) (l1 ++ l2)))
                  (tree_ignored name e && negb (existsb (has_mark tree_hides (tree_marks name)) (l1 ++ l2)))
                  (in_results s2 ++ line_results (in_line_break s2) (filter (seen tree_hides) (flat_map preorder_elem l2))))).
      { induction l2 as [|c l2 IHl]; intros l1 s2 C L2 A2 I2 S2.
        - cbn [walk_list flat_map filter line_after line_results]. rewrite !app_nil_r, <- I2, <- S2, <- L2, <- A2.
          destruct s2; reflexivity.
        - assert (Hc : In c (children_with_tokens e)) by (rewrite C; apply in_or_app; right; left; reflexivity).
          destruct (NC c Hc) as [NC1 NC2].
          cbn [walk_list orb]. rewrite (IH c Hc s2).
          2: { intros x Hx. apply W. rewrite preorder_elem_unfold. right. apply in_flat_map. exists c. split; assumption. }
          2: rewrite (reached_child tree_hides e c Hc); exact SE.
          2: rewrite NC1; exact L2.
          2: rewrite NC2; exact A2.
          2: rewrite (inherited_child _ _ e l1 c l2 C); exact I2.
          2: rewrite (inherited_child _ _ e l1 c l2 C); exact S2.
          rewrite (IHl (l1 ++ [c])).
          2: rewrite <- app_assoc; exact C.
          2: exact NC1.
          2: exact NC2.
          2,3: cbn [in_ignored in_sensitive]; rewrite (inherited_child _ _ e l1 c l2 C), existsb_app; cbn [existsb];
               rewrite orb_false_r, negb_orb, andb_assoc; reflexivity.
          cbn [in_line_break in_results flat_map]. rewrite !filter_app, line_after_app, line_results_app, <- !app_assoc.
          cbn [app]. reflexivity. }
      rewrite (CH (children_with_tokens e) [] _ eq_refl).
      2,3: reflexivity.
      2,3: cbn [in_ignored in_sensitive existsb negb]; rewrite andb_true_r; reflexivity.
      unfold indent_leave. rewrite N. fold ib name. cbn [in_level in_substeps in_sensitive in_ignored in_line_break in_results app].
      assert (CL : (if indents ib e then checked_sub L1 1 else Done L1) = Done (nesting e)).
      { unfold L1, checked_sub. destruct (indents ib e); cbn; [rewrite Nat.sub_0_r|]; reflexivity. }
      rewrite CL. unfold checked_sub, A1.
      replace (Nat.leb (substeps_of e) (substeps_of e + alignment e)) with true by (symmetry; apply Nat.leb_le; lia).
      replace (substeps_of e + alignment e - substeps_of e) with (alignment e) by lia.
      rewrite (ignore_leave_spec _ _ _ N), !(has_mark_seen tree_hides _ e R), preorder_elem_unfold.
      cbn [filter]. rewrite SE. cbn [line_after line_results]. rewrite N. do 2 f_equal.
      + rewrite FS, S. destruct (is_sensitive_tag e); cbn [orb negb]; [rewrite andb_false_r|]; reflexivity.
      + rewrite FI, I. destruct (tree_marks name e); cbn [orb negb]; [rewrite andb_false_r|]; reflexivity.
  Qed.
End Indentation.

(** The indentation rule on well nested trees: exactly the first token of every line that is
    neither ignored nor protected is compared with the indentation its nesting asks for. *)
Theorem C37_indentation_level_never_underflows_partial : forall ctx t,
  well_nested ctx (root_elem t) ->
  indent_root ctx (root_elem t) = Done (line_results ctx true (filter (seen tree_hides) (elements t))).
Proof.
  intros ctx t W. unfold indent_root. cbn [root_elem el_tree el_off el_path].
  change (walk true (indent_enter ctx) (indent_leave ctx) t 0 [] (mkIndent true 0 0 false false []))
    with (walk_elem true (indent_enter ctx) (indent_leave ctx) (root_elem t) (mkIndent true 0 0 false false [])).
  rewrite (indent_walk ctx (root_elem t) _ W); reflexivity.
Qed.

(** * C16 *)

(** An element whose rule is switched off, in the walk's view. *)
Lemma ignored_unless_cleared rule e a : In a (lineage e) -> tree_marks rule a = true ->
  tree_ignored rule e = false -> cleared_within tree_hides (tree_marks rule) a e.
Proof. intros Ha M F. exact (flag_false_cleared _ _ e a F Ha M). Qed.

Lemma line_results_from ctx : forall l lb r, In r (line_results ctx lb l) ->
  exists x, In x l /\ tree_ignored (txt "indentation"%string) x = false /\ indent_protected x = false /\
            is_node (el_tree x) = false /\ In r (handle_first_token_in_line ctx x (nesting ctx x) (alignment x)).
Proof.
  induction l as [|x l IH]; intros lb r H; [destruct H|]. cbn [line_results] in H.
  assert (G : forall lb, In r (line_results ctx lb l) -> exists x0, In x0 (x :: l) /\
    tree_ignored (txt "indentation"%string) x0 = false /\ indent_protected x0 = false /\ is_node (el_tree x0) = false /\
    In r (handle_first_token_in_line ctx x0 (nesting ctx x0) (alignment x0))).
  { intros lb' H'. destruct (IH lb' r H') as (y & Hy & R). exists y. split; [right; exact Hy|exact R]. }
  destruct (is_node (el_tree x)) eqn:N; [eapply G; exact H|].
  destruct (kind_eqb (el_kind x) TK_LINE_BREAK); [eapply G; exact H|].
  apply in_app_or in H. destruct H as [H|H]; [|eapply G; exact H].
  destruct (lb && negb (tree_ignored (txt "indentation"%string) x) && negb (indent_protected x)) eqn:Q; [|destruct H].
  apply andb_true_iff in Q. destruct Q as [Q1 Q3]. apply andb_true_iff in Q1. destruct Q1 as [_ Q2].
  apply negb_true_iff in Q2, Q3. exists x. split; [left; reflexivity|]. repeat (split; [assumption|]). exact H.
Qed.
Lemma handle_place ctx x level sub r : In r (handle_first_token_in_line ctx x level sub) ->
  exists n, rs_primary r = Some n /\ nt_start n = el_start x.
Proof.
  unfold handle_first_token_in_line. destruct (kind_eqb (el_kind x) TK_WHITESPACE).
  - destruct (negb _); [|intros []]. intros [<-|[]]. eexists. split; reflexivity.
  - destruct (_ || _); [|intros []]. intros [<-|[]]. eexists. split; reflexivity.
Qed.

(** What holds of C16: whatever is reported is outside of all parts whose directive names the rule,
    except parts in which, further to the left, another directive named the rule again. *)
Theorem C16_indentation_respects_directives_partial : forall ctx t results r,
  well_nested ctx (root_elem t) -> indent_root ctx (root_elem t) = Done results -> In r results ->
  exists x n, In x (elements t) /\ rs_primary r = Some n /\ nt_start n = el_start x /\
    forall a, In a (lineage x) -> tree_marks (txt "indentation"%string) a = true ->
              cleared_within tree_hides (tree_marks (txt "indentation"%string)) a x.
Proof.
  intros ctx t results r W E Hr. rewrite (C37_indentation_level_never_underflows_partial ctx t W) in E.
  injection E as <-. apply line_results_from in Hr. destruct Hr as (x & Hx & I & _ & _ & H).
  apply handle_place in H. destruct H as (n & H1 & H2). apply filter_In in Hx.
  exists x, n. split; [apply Hx|]. split; [exact H1|]. split; [exact H2|].
  intros a Ha M. exact (ignored_unless_cleared _ _ _ Ha M I).
Qed.

Lemma duplicates_in : forall l before p, In p (duplicates before l) ->
  exists n, In (n, fst p) l.
Proof.
  induction l as [|[n x] l IH]; intros before p H; [destruct H|]. cbn [duplicates] in H.
  apply in_app_or in H. destruct H as [H|H].
  - destruct (find _ before); [|destruct H]. destruct H as [<-|[]]. exists n. left. reflexivity.
  - destruct (IH _ _ H) as [m Hm]. exists m. right. exact Hm.
Qed.
Theorem C16_duplicates_respect_directives_partial : forall cf t rule name entry results r,
  is_node t = true ->
  (rule = rule_block_duplicate /\ name = txt "twig-block-duplicate"%string /\ entry = block_entry) \/
  (rule = rule_duplicate_id /\ name = txt "html-duplicate-id"%string /\ entry = id_entry) ->
  rl_root rule (mkCtx cf false) (root_elem t) = Done results -> In r results ->
  exists e n x, In e (elements t) /\ In (n, x) (entry e) /\ fst (places r) = Some (place x) /\
    forall a, In a (lineage e) -> tree_marks name a = true ->
              cleared_within tree_hides (tree_marks name) a e.
Proof.
  intros cf t rule name entry results r N K E Hr.
  assert (G : map places results = map (fun p => (Some (place (fst p)), [place (snd p)]))
    (duplicates [] (flat_map entry (filter (considered name) (elements t))))).
  { destruct K as [(-> & -> & ->)|(-> & -> & ->)].
    - destruct (C36_duplicate_blocks_are_counted_exactly cf t N) as (rs & R1 & R2). congruence.
    - destruct (C36_duplicate_ids_are_counted_exactly cf t N) as (rs & R1 & R2). congruence. }
  apply (in_map places) in Hr. rewrite G in Hr. apply in_map_iff in Hr. destruct Hr as (p & Hp & H).
  apply duplicates_in in H. destruct H as [n H]. apply in_flat_map in H. destruct H as (e & He & H).
  apply filter_In in He. destruct He as [He C]. exists e, n, (fst p). split; [exact He|]. split; [exact H|].
  split; [rewrite <- Hp; reflexivity|]. intros a Ha M. unfold considered in C. apply andb_true_iff in C.
  apply (ignored_unless_cleared _ _ _ Ha M). apply negb_true_iff. apply C.
Qed.

(** C16 in full: nothing is reported below a directive that names the rule.  Refuted: a nested
    directive naming the rule switches it on again for what follows in the outer element. *)
Definition nested_template : text :=
  txt "{# ludtwig-ignore indentation #}"%string ++ [10%N] ++ txt "<div>"%string ++ [10%N]
  ++ txt "{# ludtwig-ignore indentation #}"%string ++ [10%N] ++ txt "<p>x</p>"%string ++ [10%N] ++ txt "<i>y</i>"%string ++ [10%N] ++ txt "</div>"%string.
Theorem C16_ignored_parts_are_never_reported_refuted :
  ~ (forall src t errs results, parse_file true src = Done (t, errs) ->
     run_rules default_config [rule_indentation] t = Done results ->
     forall r n x, In r results -> rs_primary r = Some n -> In x (elements t) -> is_node (el_tree x) = false ->
       nt_start n = el_start x -> nt_start n < el_end x ->
       ~ exists a, In a (lineage x) /\ tree_marks (txt "indentation"%string) a = true).
Proof.
  intros H.
  assert (E : match parse_file true nested_template with
              | Done (t, _) =>
                match run_rules default_config [rule_indentation] t with
                | Done (r :: _) =>
                  match rs_primary r with
                  | Some n =>
                    match find (fun x => negb (is_node (el_tree x)) && Nat.eqb (nt_start n) (el_start x) && Nat.ltb (nt_start n) (el_end x)) (elements t) with
                    | Some x => existsb (tree_marks (txt "indentation"%string)) (lineage x) = true
                    | None => False
                    end
                  | None => False
                  end
                | _ => False
                end
              | Crashed => False
              end) by (vm_compute; reflexivity).
  destruct (parse_file true nested_template) as [[t errs]|] eqn:P; [|exact E].
  destruct (run_rules default_config [rule_indentation] t) as [[|r rs]|] eqn:R; try exact E.
  destruct (rs_primary r) as [n|] eqn:Pr; [|exact E].
  destruct (find _ (elements t)) as [x|] eqn:F; [|exact E]. apply find_some in F. destruct F as [F1 F2].
  apply andb_true_iff in F2. destruct F2 as [F2 F4]. apply andb_true_iff in F2. destruct F2 as [F2 F3].
  apply negb_true_iff in F2. apply Nat.eqb_eq in F3. apply Nat.ltb_lt in F4.
  apply existsb_exists in E.
  exact (H _ _ _ _ P R r n x (or_introl eq_refl) Pr F1 F2 F3 F4 E).
Qed.

(** A directive does switch the indentation and duplicate rules off where no other one follows. *)
Example C16_case :
  match parse_file true (txt "{# ludtwig-ignore indentation #}"%string ++ [10%N] ++ txt "<div>"%string ++ [10%N] ++ txt "<i>y</i>"%string ++ [10%N] ++ txt "</div>"%string) with
  | Done (t, _) => run_rules default_config [rule_indentation] t = Done []
  | Crashed => False
  end.
Proof. vm_compute. reflexivity. Qed.
Example C36_case :
  match parse_file true (txt "{% block a %}{% endblock %}{% block b %}{% block a %}{% endblock %}{% endblock %}{# ludtwig-ignore #}{% block a %}{% endblock %}{% block a %}{% endblock %}<p id='x'></p><b id='x'></b>"%string) with
  | Done (t, []) =>
    is_node t = true /\
    match rl_root rule_block_duplicate (mkCtx default_config false) (root_elem t),
          rl_root rule_duplicate_id (mkCtx default_config false) (root_elem t) with
    | Done bs, Done is =>
      map places bs = [(Some (49, 50), [(9, 10)]); (Some (137, 138), [(9, 10)])] /\
      map places is = [(Some (176, 177), [(162, 163)])]
    | _, _ => False
    end
  | _ => False
  end.
Proof. vm_compute. repeat split. Qed.

Print Assumptions C16_indentation_respects_directives_partial.
Print Assumptions C16_duplicates_respect_directives_partial.
Print Assumptions C16_ignored_parts_are_never_reported_refuted.
Print Assumptions C36_duplicate_blocks_are_counted_exactly.
Print Assumptions C36_duplicate_ids_are_counted_exactly.
Print Assumptions C36_each_further_occurrence_is_reported_once.
Print Assumptions C37_indentation_level_never_underflows_partial.
