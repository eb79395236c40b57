(** Property theorems about the selection of rules: C18, C19. *)
From Coq Require Import NArith String Bool Lia Arith List.
Import ListNotations.
From Verif Require Import Text Kind LexerProofs Machine TreeSpec Red RedFacts Typed Rule Rules Check DefaultConfig.
Local Open Scope list_scope.
Local Notation length := List.length (only parsing).

(** * What is meant *)

(** A part of a list in the same order. *)
Inductive sublist {A : Type} : list A -> list A -> Prop :=
| sublist_nil : sublist [] []
| sublist_keep x a b : sublist a b -> sublist (x :: a) (x :: b)
| sublist_skip x a b : sublist a b -> sublist a (x :: b).

(** There is a rule of that name. *)
Definition known_in (defs : list rule) (n : text) : Prop := exists r, In r defs /\ rl_name r = n.
Definition known (n : text) : Prop := known_in RULE_DEFINITIONS n.

(** [d] is a ludtwig-ignore-file directive at the top level of [root]. *)
Definition file_directive (root d : tree) : Prop :=
  In d (children root) /\ exists cs, d = Node LUDTWIG_DIRECTIVE_FILE_IGNORE cs.

(** The directive [d] lists the name [n] (in its first list of names). *)
Definition lists_name (d : tree) (n : text) : Prop :=
  exists before names after,
    children d = before ++ Node LUDTWIG_DIRECTIVE_RULE_LIST names :: after /\
    (forall x, ~ In (Node LUDTWIG_DIRECTIVE_RULE_LIST x) before) /\
    In (Leaf TK_WORD n) names.

(** * Lemmas *)
Lemma mem_text_In x l : mem_text x l = true <-> In x l.
Proof.
  unfold mem_text. rewrite existsb_exists. split.
  - intros (y & Hy & E). apply text_eqb_eq in E. subst. exact Hy.
  - intros H. exists x. split; [exact H|apply text_eqb_eq; reflexivity].
Qed.
Lemma mem_text_false x l : mem_text x l = false <-> ~ In x l.
Proof. rewrite <- mem_text_In. destruct (mem_text x l); split; congruence. Qed.

Lemma filter_sublist {A} (f : A -> bool) l : sublist (filter f l) l.
Proof. induction l as [|x l IH]; cbn [filter]; [constructor|]. destruct (f x); constructor; exact IH. Qed.
Lemma sublist_in {A} (a b : list A) x : sublist a b -> In x a -> In x b.
Proof. intros H. induction H; cbn [In]; tauto. Qed.
Lemma sublist_NoDup {A B} (f : A -> B) a b : sublist a b -> NoDup (map f b) -> NoDup (map f a).
Proof.
  intros H. induction H; cbn [map]; intros N; [constructor| |]; inversion N; subst.
  - constructor; [|auto]. intros Hin. apply H2. apply in_map_iff in Hin. destruct Hin as (y & E & Hy).
    rewrite <- E. apply in_map. eapply sublist_in; eassumption.
  - auto.
Qed.

Lemma find_none_iff {A} (f : A -> bool) l : find f l = None <-> forall x, In x l -> f x = false.
Proof.
  split; [apply find_none|]. induction l as [|x l IH]; cbn [find]; [reflexivity|].
  intros H. rewrite (H x (or_introl eq_refl)). apply IH. intros y Hy. apply H. right. exact Hy.
Qed.

(** The names of the rules are distinct. *)
Lemma distinct_names : NoDup (map rl_name RULE_DEFINITIONS).
Proof.
  assert (G : forall l, (fix nd (l : list text) : bool :=
      match l with [] => true | x :: r => negb (mem_text x r) && nd r end) l = true -> NoDup l).
  { induction l as [|x l IH]; intros H; [constructor|]. apply andb_true_iff in H. destruct H as [H1 H2].
    constructor; [|apply IH; exact H2]. apply mem_text_false. apply negb_true_iff. exact H1. }
  apply G. vm_compute. reflexivity.
Qed.

Section Definitions.
  Context (defs : list rule) (distinct : NoDup (map rl_name defs)).
Definition unselected (names : list text) (n : text) : bool :=
  negb (existsb (fun r => text_eqb (rl_name r) n)
          (filter (fun r => mem_text (rl_name r) names) defs)).
Lemma unselected_known names n : In n names -> (unselected names n = false <-> known_in defs n).
Proof.
  intros Hn. unfold unselected, known_in. rewrite negb_false_iff, existsb_exists. split.
  - intros (r & Hr & E). apply filter_In in Hr. apply text_eqb_eq in E. exists r. tauto.
  - intros (r & Hr & E). exists r. split; [|apply text_eqb_eq; exact E].
    apply filter_In. split; [exact Hr|]. apply mem_text_In. rewrite E. exact Hn.
Qed.


Lemma gen_configured_rules_are_selected : forall names,
  Forall (known_in defs) names ->
  exists rules, get_config_active_rules defs names = Selected rules /\
    sublist rules defs /\
    NoDup (map rl_name rules) /\
    (forall n, In n (map rl_name rules) <-> In n names).
Proof.
  intros names H. rewrite Forall_forall in H. eexists. split.
  - unfold get_config_active_rules.
    assert (E : find (unselected names) names = None).
    { apply find_none_iff. intros n Hn. apply unselected_known; [exact Hn|]. apply H. exact Hn. }
    unfold unselected in E. rewrite E. reflexivity.
  - split; [apply filter_sublist|]. split.
    + eapply sublist_NoDup; [apply filter_sublist|exact distinct].
    + intros n. rewrite in_map_iff. split.
      * intros (r & <- & Hr). apply filter_In in Hr. apply mem_text_In. apply Hr.
      * intros Hn. destruct (H n Hn) as (r & Hr & E). exists r. split; [exact E|].
        apply filter_In. split; [exact Hr|]. apply mem_text_In. rewrite E. exact Hn.
Qed.

Lemma gen_order_does_not_matter : forall names names',
  Forall (known_in defs) names -> (forall n, In n names <-> In n names') ->
  get_config_active_rules defs names = get_config_active_rules defs names'.
Proof.
  intros names names' H S.
  assert (E : filter (fun r => mem_text (rl_name r) names) defs
            = filter (fun r => mem_text (rl_name r) names') defs).
  { apply filter_ext. intros r. destruct (mem_text (rl_name r) names') eqn:M.
    - apply mem_text_In. apply S. apply mem_text_In. exact M.
    - apply mem_text_false. rewrite S. apply mem_text_false. exact M. }
  unfold get_config_active_rules. rewrite E.
  rewrite Forall_forall in H.
  assert (F : forall ns, (forall n, In n ns -> known_in defs n /\ In n names') ->
     find (unselected names') ns = None).
  { intros ns Hns. apply find_none_iff. intros n Hn. apply unselected_known; apply Hns; exact Hn. }
  unfold unselected in F. rewrite !F; [reflexivity| |].
  - intros n Hn. split; [apply H; apply S|]; exact Hn.
  - intros n Hn. split; [apply H|apply S]; exact Hn.
Qed.

Lemma gen_first_unknown_name_is_reported : forall before n after,
  Forall (known_in defs) before -> ~ known_in defs n ->
  get_config_active_rules defs (before ++ n :: after) = RuleNotFound n.
Proof.
  intros before n after H Hn. rewrite Forall_forall in H. unfold get_config_active_rules.
  set (names := before ++ n :: after).
  assert (E : forall l l', names = l ++ l' -> (forall x, In x l' -> In x names) ->
     (exists b, l' = b ++ n :: after /\ forall x, In x b -> known_in defs x) ->
     find (unselected names) l' = Some n).
  { intros l l' _ Hin (b & -> & Hb). induction b as [|x b IH]; cbn [app find].
    - destruct (unselected names n) eqn:U; [reflexivity|].
      apply unselected_known in U; [contradiction|]. apply Hin. left. reflexivity.
    - assert (U : unselected names x = false).
      { apply unselected_known; [apply Hin; left; reflexivity|]. apply Hb. left. reflexivity. }
      rewrite U. apply IH.
      + intros y Hy. apply Hin. right. exact Hy.
      + intros y Hy. apply Hb. right. exact Hy. }
  specialize (E [] names eq_refl (fun x Hx => Hx)). unfold unselected in E. rewrite E; [reflexivity|].
  exists before. split; [reflexivity|exact H].
Qed.

End Definitions.

(** * C19 *)

(** If every configured name exists, the active rules are the configured ones, each once, in
    the order of the definitions. *)
Theorem C19_configured_rules_are_selected : forall names,
  Forall known names ->
  exists rules, get_config_active_rules RULE_DEFINITIONS names = Selected rules /\
    sublist rules RULE_DEFINITIONS /\
    NoDup (map rl_name rules) /\
    (forall n, In n (map rl_name rules) <-> In n names).
Proof. exact (gen_configured_rules_are_selected RULE_DEFINITIONS distinct_names). Qed.

(** Order and repetition in the configuration do not matter. *)
Theorem C19_order_does_not_matter : forall names names',
  Forall known names -> (forall n, In n names <-> In n names') ->
  get_config_active_rules RULE_DEFINITIONS names = get_config_active_rules RULE_DEFINITIONS names'.
Proof. exact (gen_order_does_not_matter RULE_DEFINITIONS). Qed.

(** Otherwise the first unknown name is reported. *)
Theorem C19_first_unknown_name_is_reported : forall before n after,
  Forall known before -> ~ known n ->
  get_config_active_rules RULE_DEFINITIONS (before ++ n :: after) = RuleNotFound n.
Proof. exact (gen_first_unknown_name_is_reported RULE_DEFINITIONS). Qed.

(** Two rules, configured twice and out of order. *)
Example C19_selected_case :
  let a := txt "twig-logic-or" in let b := txt "line-ending" in
  match get_config_active_rules RULE_DEFINITIONS [a; b; a] with
  | Selected [r1; r2] => text_eqb (rl_name r1) b && text_eqb (rl_name r2) a
  | _ => false
  end = true.
Proof. vm_compute. reflexivity. Qed.
Example C19_unknown_case :
  match get_config_active_rules RULE_DEFINITIONS [txt "line-ending"; txt "nope"; txt "other"] with
  | RuleNotFound n => text_eqb n (txt "nope")
  | _ => false
  end = true.
Proof. vm_compute. reflexivity. Qed.
(** The default configuration selects all rules. *)
Example C19_default :
  get_config_active_rules RULE_DEFINITIONS (active_rules default_config) = Selected RULE_DEFINITIONS.
Proof. reflexivity. Qed.

(** * C18 *)
Lemma tree_rules_lists d n : In n (tree_rules d) <-> lists_name d n.
Proof.
  unfold tree_rules, lists_name.
  set (f := fun c : tree => is_node c && kind_eqb (tree_kind c) LUDTWIG_DIRECTIVE_RULE_LIST).
  assert (Hf : forall c, f c = true <-> exists x, c = Node LUDTWIG_DIRECTIVE_RULE_LIST x).
  { intros c. unfold f. destruct c as [k s|k cs]; cbn [is_node tree_kind andb].
    - split; [discriminate|intros (x & E); discriminate].
    - rewrite kind_eqb_eq. split; [intros ->; eexists; reflexivity|intros (x & [= -> _]); reflexivity]. }
  assert (Hw : forall l, In n (tree_words (Node LUDTWIG_DIRECTIVE_RULE_LIST l)) <-> In (Leaf TK_WORD n) l).
  { intros l. unfold tree_words. cbn [children]. rewrite in_map_iff. split.
    - intros (c & E & Hc). apply filter_In in Hc. destruct Hc as [Hc K].
      apply andb_true_iff in K. destruct K as [K1 K2]. apply kind_eqb_eq in K2.
      destruct c as [k s|k cs]; [|discriminate]. cbn [tree_kind] in K2. subst k.
      rewrite tree_text_leaf in E. subst. exact Hc.
    - intros H. exists (Leaf TK_WORD n). rewrite tree_text_leaf. split; [reflexivity|].
      apply filter_In. split; [exact H|reflexivity]. }
  split.
  - destruct (find f (children d)) as [l|] eqn:E; [|contradiction]. intros H.
    assert (G : exists b a, children d = b ++ l :: a /\ forall x, In x b -> f x = false).
    { revert E. clear. induction (children d) as [|c cs IH]; cbn [find]; [discriminate|].
      destruct (f c) eqn:F.
      - intros [= ->]. exists [], cs. split; [reflexivity|intros x []].
      - intros E. destruct (IH E) as (b & a & -> & Hb). exists (c :: b), a. split; [reflexivity|].
        intros x [<-|Hx]; [exact F|apply Hb; exact Hx]. }
    destruct G as (b & a & G & Hb). apply find_some in E. destruct E as [_ E]. apply Hf in E.
    destruct E as (x & ->). exists b, x, a. split; [exact G|]. split; [|apply Hw; exact H].
    intros y Hy. apply Hb in Hy.
    assert (f (Node LUDTWIG_DIRECTIVE_RULE_LIST y) = true) by (apply Hf; eexists; reflexivity). congruence.
  - intros (b & x & a & E & Hb & H).
    assert (G : find f (children d) = Some (Node LUDTWIG_DIRECTIVE_RULE_LIST x)).
    { rewrite E. clear E. induction b as [|c b IH]; cbn [app find].
      - assert (f (Node LUDTWIG_DIRECTIVE_RULE_LIST x) = true) as -> by (apply Hf; eexists; reflexivity).
        reflexivity.
      - destruct (f c) eqn:F.
        + apply Hf in F. destruct F as (y & ->). exfalso. apply (Hb y). left. reflexivity.
        + apply IH. intros y Hy. apply (Hb y). right. exact Hy. }
    rewrite G. apply Hw. exact H.
Qed.

Lemma disabled_none ds acc : disabled_rules ds acc = None <-> exists d, In d ds /\ get_rules d = [].
Proof.
  revert acc. induction ds as [|d ds IH]; intros acc; cbn [disabled_rules].
  - split; [discriminate|intros (d & [] & _)].
  - destruct (get_rules d) as [|n ns] eqn:E.
    + split; [|reflexivity]. intros _. exists d. split; [left; reflexivity|exact E].
    + rewrite IH. split.
      * intros (x & Hx & Ex). exists x. split; [right; exact Hx|exact Ex].
      * intros (x & [<-|Hx] & Ex); [congruence|]. exists x. split; assumption.
Qed.
Lemma disabled_some ds acc l : disabled_rules ds acc = Some l ->
  forall n, In n l <-> In n acc \/ exists d, In d ds /\ In n (get_rules d).
Proof.
  revert acc. induction ds as [|d ds IH]; intros acc; cbn [disabled_rules].
  - intros [= ->] n. split; [tauto|]. intros [H|(d & [] & _)]. exact H.
  - destruct (get_rules d) as [|x xs] eqn:E; [discriminate|]. intros H n. rewrite (IH _ H n), in_app_iff, <- E.
    split.
    + intros [[H0|H0]|(y & Hy & Hn)]; [tauto| |].
      * right. exists d. split; [left; reflexivity|exact H0].
      * right. exists y. split; [right; exact Hy|exact Hn].
    + intros [H0|(y & [<-|Hy] & Hn)]; [tauto|tauto|]. right. exists y. split; assumption.
Qed.

Lemma directive_elems root n :
  (exists d, In d (support_children LUDTWIG_DIRECTIVE_FILE_IGNORE (root_elem root)) /\ In n (get_rules d))
  <-> exists d, file_directive root d /\ lists_name d n.
Proof.
  pose proof (support_children_trees LUDTWIG_DIRECTIVE_FILE_IGNORE (root_elem root)) as T.
  cbn [root_elem el_tree] in T. split.
  - intros (e & He & Hn). exists (el_tree e). rewrite get_rules_tree in Hn. split; [|apply tree_rules_lists; exact Hn].
    apply (in_map el_tree) in He. rewrite T in He. apply filter_In in He. destruct He as [H1 H2].
    split; [exact H1|]. apply andb_true_iff in H2. destruct H2 as [H2 H3].
    destruct (el_tree e) as [k s|k cs]; [discriminate|]. cbn [tree_kind] in H3.
    apply kind_eqb_eq in H3. subst. eexists. reflexivity.
  - intros (d & [H1 (cs & ->)] & Hn).
    assert (H : In (Node LUDTWIG_DIRECTIVE_FILE_IGNORE cs)
      (map el_tree (support_children LUDTWIG_DIRECTIVE_FILE_IGNORE (root_elem root)))).
    { rewrite T. apply filter_In. split; [exact H1|]. reflexivity. }
    apply in_map_iff in H. destruct H as (e & E & He). exists e. split; [exact He|].
    rewrite get_rules_tree, E. apply tree_rules_lists. exact Hn.
Qed.

Lemma directive_elems_empty root :
  (exists d, In d (support_children LUDTWIG_DIRECTIVE_FILE_IGNORE (root_elem root)) /\ get_rules d = [])
  <-> exists d, file_directive root d /\ forall n, ~ lists_name d n.
Proof.
  pose proof (support_children_trees LUDTWIG_DIRECTIVE_FILE_IGNORE (root_elem root)) as T.
  cbn [root_elem el_tree] in T. split.
  - intros (e & He & Hn). exists (el_tree e). rewrite get_rules_tree in Hn. split.
    2: { intros n Hl. apply tree_rules_lists in Hl. rewrite Hn in Hl. exact Hl. }
    apply (in_map el_tree) in He. rewrite T in He. apply filter_In in He. destruct He as [H1 H2].
    split; [exact H1|]. apply andb_true_iff in H2. destruct H2 as [H2 H3].
    destruct (el_tree e) as [k s|k cs]; [discriminate|]. cbn [tree_kind] in H3.
    apply kind_eqb_eq in H3. subst. eexists. reflexivity.
  - intros (d & [H1 (cs & ->)] & Hn).
    assert (H : In (Node LUDTWIG_DIRECTIVE_FILE_IGNORE cs)
      (map el_tree (support_children LUDTWIG_DIRECTIVE_FILE_IGNORE (root_elem root)))).
    { rewrite T. apply filter_In. split; [exact H1|]. reflexivity. }
    apply in_map_iff in H. destruct H as (e & E & He). exists e. split; [exact He|].
    rewrite get_rules_tree, E.
    destruct (tree_rules (Node LUDTWIG_DIRECTIVE_FILE_IGNORE cs)) as [|n l] eqn:R; [reflexivity|].
    exfalso. apply (Hn n). apply tree_rules_lists. rewrite R. left. reflexivity.
Qed.

(** A top-level directive without names disables all rules. *)
Theorem C18_unnamed_directive_disables_all : forall root rules,
  (exists d, file_directive root d /\ forall n, ~ lists_name d n) ->
  get_file_active_rules (root_elem root) rules = [].
Proof.
  intros root rules H. unfold get_file_active_rules. apply directive_elems_empty in H.
  apply (disabled_none _ []) in H. rewrite H. reflexivity.
Qed.

(** Otherwise exactly the rules named by a top-level directive are left out; the others keep
    their order and number. *)
Theorem C18_named_rules_are_left_out : forall root rules keep,
  (forall d, file_directive root d -> exists n, lists_name d n) ->
  (forall r, In r rules ->
     (keep r = true <-> ~ exists d, file_directive root d /\ lists_name d (rl_name r))) ->
  get_file_active_rules (root_elem root) rules = filter keep rules.
Proof.
  intros root rules keep H K. unfold get_file_active_rules.
  destruct (disabled_rules (support_children LUDTWIG_DIRECTIVE_FILE_IGNORE (root_elem root)) []) as [l|] eqn:E.
  - apply filter_ext_in. intros r Hr. specialize (K r Hr). pose proof (disabled_some _ _ _ E (rl_name r)) as D.
    cbn [In] in D. rewrite directive_elems in D.
    destruct (mem_text (rl_name r) l) eqn:M; cbn [negb].
    + apply mem_text_In in M. destruct (keep r); [|reflexivity]. exfalso. apply K; [reflexivity|]. tauto.
    + apply mem_text_false in M. symmetry. apply K. intros X. apply M. tauto.
  - apply disabled_none in E. apply directive_elems_empty in E. destruct E as (d & Hd & Hn).
    destruct (H d Hd) as (n & Hl). exfalso. exact (Hn n Hl).
Qed.

(** A file with one directive naming a rule, and one with a directive without names. *)
Definition active_names (src : text) : option (list text) :=
  match parse_src true src with
  | OK (t, _) => Some (map rl_name (get_file_active_rules (root_elem t) RULE_DEFINITIONS))
  | _ => None
  end.
Example C18_named_case :
  active_names (txt "{# ludtwig-ignore-file indentation #}<div></div>")
  = Some (filter (fun n => negb (text_eqb n (txt "indentation"))) (map rl_name RULE_DEFINITIONS)).
Proof. vm_compute. reflexivity. Qed.
Example C18_unnamed_case : active_names (txt "<div></div>{# ludtwig-ignore-file #}") = Some [].
Proof. vm_compute. reflexivity. Qed.

Print Assumptions C18_unnamed_directive_disables_all.
Print Assumptions C18_named_rules_are_left_out.
Print Assumptions C19_configured_rules_are_selected.
Print Assumptions C19_order_does_not_matter.
Print Assumptions C19_first_unknown_name_is_reported.
