(** C78: what --fix does to an element after an ignore directive. *)
From Coq Require Import NArith String Bool Arith Lia Permutation List.
Import ListNotations.
From Verif Require Import Text Kind Regex Lexer LexerProofs ParserApi Machine TreeSpec.
From Verif Require PropFits Schema Skeleton PropShape PropSkel PropLexer PropParser PropLines PropIndent PropFound3 PropEndings PropKeep Settled Tidy.
From Verif Require Import Red Typed Rule Naming Rules Check Process RedFacts WalkSpec PropProcess PropRun PropTree PropOff Found FoundRun PropFound PropFound5 PropFound6 Collide.
Local Notation length := List.length (only parsing).
Local Open Scope list_scope.

(** * Specification *)

(** [d] is an ignore directive directly before [e], for all rules or for the rule [rule]. *)
Definition ignore_before (rule : text) (d e : elem) : Prop :=
  (exists p l r, children_with_tokens p = l ++ d :: e :: r) /\
  a_node LUDTWIG_DIRECTIVE_IGNORE d /\ el_text d <> [] /\
  (tree_rules (el_tree d) = [] \/ In rule (tree_rules (el_tree d))).
(** No other directive is inside of [e]. *)
Definition no_directive_inside (e : elem) : Prop := forall y, In y (preorder_elem e) -> ~ a_node LUDTWIG_DIRECTIVE_IGNORE y.
(** [e] is a comment and the next node after it is a block. *)
Definition comment_of_block (e : elem) : Prop :=
  a_comment e /\ exists p l b r, child_nodes p = l ++ e :: b :: r /\ a_node TWIG_BLOCK b.
(** The edit is before [e] or behind it; it may touch its edges. *)
Definition leaves_alone (s : suggestion) (e : elem) : Prop := sg_end s <= el_start e \/ el_end e <= sg_start s.

(** * Directives and what they hide *)
Lemma elems_neighbour k off p : forall cs l o l1 d e l2,
  elems_of k off p l o cs = l1 ++ d :: e :: l2 -> exists c rest, el_path e = c :: p /\ cr_left c = el_tree d :: rest /\ el_start e = el_end d.
Proof.
  induction cs as [|t cs IH]; intros l o l1 d e l2 E; [destruct l1; discriminate E|]. cbn [elems_of] in E.
  destruct l1 as [|x l1]; cbn [app] in E; injection E as E1 E; [|exact (IH _ _ _ _ _ _ E)].
  destruct cs as [|t' cs]; [discriminate E|]. cbn [elems_of] in E. injection E as <- _. subst d. cbn [el_path el_tree]. do 2 eexists. split; [reflexivity|]. split; reflexivity.
Qed.
Lemma neighbour p l d e r : children_with_tokens p = l ++ d :: e :: r -> exists c q rest, el_path e = c :: q /\ cr_left c = el_tree d :: rest /\ el_start e = el_end d.
Proof.
  unfold children_with_tokens. destruct (el_tree p) as [|k cs]; [destruct l; discriminate|]. intros E.
  apply elems_neighbour in E as (c & rest & E1 & E2 & E3). eauto 6.
Qed.
Lemma names_are rule d e : ignore_before rule d e -> names_before e = Some (tree_rules (el_tree d)) /\ names_before_node e = Some (tree_rules (el_tree d)).
Proof.
  intros ((p & l & r & E) & (cs & K) & _). destruct (neighbour p l d e r E) as (c & q & rest & P & L & _).
  unfold names_before, names_before_node. rewrite P, L. cbn [find]. rewrite K. cbn [is_node is_directive]. auto.
Qed.
Lemma mem_text_in x : forall l, mem_text x l = true <-> In x l.
Proof.
  intros l. unfold mem_text. rewrite existsb_exists. split.
  - intros (y & Hy & E). apply text_eqb_eq in E. now subst.
  - intros H. exists x. split; [exact H|apply text_eqb_refl].
Qed.
Lemma hidden rule d e x : ignore_before rule d e -> In x (preorder_elem e) -> ~ visible rule x.
Proof.
  intros B Hx [V1 V2]. pose proof (proj1 (names_are rule d e B)) as N. destruct B as (_ & _ & _ & B).
  assert (L : In e (lineage x)) by (destruct (lineage_below e x Hx) as (l & ->); apply in_or_app; right; rewrite lineage_cons; now left).
  destruct B as [B|B].
  - unfold seen in V1. apply negb_true_iff in V1. assert (X : existsb run_hides (lineage x) = true); [|congruence].
    apply existsb_exists. exists e. split; [exact L|]. unfold run_hides. rewrite N, B. apply orb_true_r.
  - assert (X : switched_off rule x = true); [|congruence]. unfold switched_off. apply existsb_exists. exists e. split; [exact L|].
    rewrite N. cbn [lists]. now apply mem_text_in.
Qed.

(** * Elements and the elements below them *)
Definition below (e0 e : elem) : Prop := exists c, In c (children_with_tokens e0) /\ In e (preorder_elem c).
Lemma below_or e0 e : In e (preorder_elem e0) -> e = e0 \/ below e0 e.
Proof. rewrite preorder_elem_unfold. intros [<-|H]; [auto|]. right. apply in_flat_map in H. exact H. Qed.
Lemma below_in e0 e : below e0 e -> In e (preorder_elem e0).
Proof. intros H. rewrite preorder_elem_unfold. right. apply in_flat_map. exact H. Qed.
Lemma below_parent : forall e0 e, below e0 e -> exists p, parent e = Some p /\ In p (preorder_elem e0) /\ In e (children_with_tokens p).
Proof.
  apply (elem_induction (fun e0 => forall e, below e0 e -> exists p, parent e = Some p /\ In p (preorder_elem e0) /\ In e (children_with_tokens p))).
  intros e0 IH e (c & Hc & H). apply below_or in H as [->|H].
  - exists e0. split; [now apply PropFound3.child_parent|]. split; [apply preorder_self|exact Hc].
  - destruct (IH c Hc e H) as (p & P1 & P2 & P3). exists p. split; [exact P1|]. split; [|exact P3]. apply below_in. exists c. auto.
Qed.
Lemma preorder_trans : forall e0 p e, In p (preorder_elem e0) -> In e (preorder_elem p) -> In e (preorder_elem e0).
Proof.
  apply (elem_induction (fun e0 => forall p e, In p (preorder_elem e0) -> In e (preorder_elem p) -> In e (preorder_elem e0))).
  intros e0 IH p e Hp He. apply below_or in Hp as [->|(c & Hc & Hp)]; [exact He|]. apply below_in. exists c. split; [exact Hc|exact (IH c Hc p e Hp He)].
Qed.
Lemma parent_below e0 p e : In p (preorder_elem e0) -> In e (children_with_tokens p) -> below e0 e.
Proof.
  intros Hp He. apply below_or in Hp as [->|(c & Hc & Hp)]; [exists e; split; [exact He|apply preorder_self]|].
  exists c. split; [exact Hc|]. apply (preorder_trans c p e Hp). apply below_in. exists e. split; [exact He|apply preorder_self].
Qed.
Lemma neighbour_below rule d e e0 : ignore_before rule d e -> below e0 e -> below e0 d.
Proof.
  intros ((p & l & r & E) & _) H. apply below_parent in H as (q & Q1 & Q2 & _).
  assert (I : In e (children_with_tokens p)) by (rewrite E; apply in_or_app; right; right; now left).
  apply PropFound3.child_parent in I. rewrite Q1 in I. injection I as ->. apply (parent_below e0 p d Q2). rewrite E. apply in_or_app. right. now left.
Qed.
Lemma up_below t : forall k x e, In x (elements t) -> up k x = Some e -> In x (preorder_elem e).
Proof.
  induction k as [|k IH]; intros x e Hx U; [injection U as ->; apply preorder_self|]. cbn [up] in U. destruct (parent x) as [p|] eqn:P; [|discriminate U].
  assert (Wp : In p (elements t)) by (apply within_elements; eapply within_parent; [apply elements_within; exact Hx|exact P]).
  apply (preorder_trans e p x (IH p e Wp U)). apply below_in. exists x. split; [exact (parent_children t x p Hx P)|apply preorder_self].
Qed.

(** * Kinds of nodes inside of which there is no directive *)
Fixpoint kinds_in (m : Schema.cm) : list kind :=
  match m with
  | Schema.Eps | Schema.AnyTok => []
  | Schema.One l => flat_map (fun s => match s with Schema.Nd k => [k] | Schema.Tok _ => [] end) l
  | Schema.Seq a b | Schema.Alt a b => kinds_in a ++ kinds_in b
  | Schema.Many a => kinds_in a
  end.
Lemma kinds_in_sound k : forall m l, Schema.sem m l -> In (Schema.Nd k) l -> In k (kinds_in m).
Proof.
  induction m as [|ss| |a IHa b IHb|a IHa b IHb|a IHa]; intros l H I; cbn [Schema.sem kinds_in] in *.
  - subst l. destruct I.
  - destruct H as (s & -> & Hs). destruct I as [->|[]]. apply in_flat_map. exists (Schema.Nd k). split; [exact Hs|now left].
  - destruct H as (k' & ->). destruct I as [I|[]]. discriminate I.
  - destruct H as (x & y & -> & Hx & Hy). apply in_or_app. apply in_app_or in I as [I|I]; eauto.
  - apply in_or_app. destruct H; eauto.
  - induction H as [|x y Hx _ IH]; [destruct I|]. apply in_app_or in I as [I|I]; eauto.
Qed.
Definition calm_kinds : list kind :=
  ERROR :: TWIG_EXPRESSION :: Schema.expressions ++
  [TWIG_OPERAND; TWIG_INDEX; TWIG_INDEX_RANGE; TWIG_ARGUMENTS; TWIG_NAMED_ARGUMENT; TWIG_LITERAL_STRING_INNER; TWIG_LITERAL_STRING_INTERPOLATION;
   TWIG_LITERAL_ARRAY_INNER; TWIG_LITERAL_HASH_ITEMS; TWIG_LITERAL_HASH_PAIR; TWIG_LITERAL_HASH_KEY; TWIG_STARTING_BLOCK; TWIG_ENDING_BLOCK;
   TWIG_COMMENT; HTML_COMMENT; LUDTWIG_DIRECTIVE_IGNORE; LUDTWIG_DIRECTIVE_FILE_IGNORE; LUDTWIG_DIRECTIVE_RULE_LIST].
Definition calm (e : elem) : Prop := In (el_kind e) calm_kinds.
Lemma calm_closed k m k' : In k calm_kinds -> Skeleton.skeleton k = Some m -> In k' (kinds_in m) -> In k' calm_kinds /\ k' <> LUDTWIG_DIRECTIVE_IGNORE.
Proof.
  intros Hk E Hk'.
  assert (A : forallb (fun k => match Skeleton.skeleton k with
      | Some m => forallb (fun k' => existsb (kind_eqb k') calm_kinds && negb (kind_eqb k' LUDTWIG_DIRECTIVE_IGNORE)) (kinds_in m)
      | None => true end) calm_kinds = true) by (vm_compute; reflexivity).
  rewrite forallb_forall in A. specialize (A k Hk). rewrite E in A. rewrite forallb_forall in A. specialize (A k' Hk'). apply andb_true_iff in A as [A B].
  apply existsb_exists in A as (y & Hy & A). apply kind_eqb_eq in A. subst y. split; [exact Hy|]. intros ->. rewrite kind_eqb_refl in B. discriminate B.
Qed.

Section Tree.
  Context (dbg : bool) (src : text) (t : tree) (errs : list perror) (HP : parse_src dbg src = OK (t, errs)).

  Lemma child_kind e c k : In e (elements t) -> a_node k e -> In c (children_with_tokens e) -> is_node (el_tree c) = true ->
    el_kind c = ERROR \/ exists m, Skeleton.skeleton k = Some m /\ In (el_kind c) (kinds_in m).
  Proof.
    intros He (cs & K) Hc Nc. pose proof (element_subtree t e He) as Sb. rewrite K in Sb.
    destruct (PropSkel.C45_every_tree_keeps_the_skeleton _ _ _ _ HP k cs Sb) as (m & Em & S).
    destruct (kind_eqb (el_kind c) ERROR) eqn:B; [left; now apply kind_eqb_eq in B|]. right. exists m. split; [exact Em|].
    apply (kinds_in_sound _ m _ S). unfold Skeleton.parts. apply in_flat_map. exists (el_tree c). split.
    - assert (X : In (el_tree c) (children (el_tree e))) by now apply children_tree_in. rewrite K in X. exact X.
    - unfold el_kind in *. destruct (el_tree c) as [|kc l]; [discriminate Nc|]. cbn [tree_kind Skeleton.part] in *.
      destruct kc; try (now left). discriminate B.
  Qed.
  Lemma calm_below : forall e0, In e0 (elements t) -> calm e0 -> forall y, below e0 y -> is_node (el_tree y) = true -> calm y /\ el_kind y <> LUDTWIG_DIRECTIVE_IGNORE.
  Proof.
    apply (elem_induction (fun e0 => In e0 (elements t) -> calm e0 -> forall y, below e0 y -> is_node (el_tree y) = true -> calm y /\ el_kind y <> LUDTWIG_DIRECTIVE_IGNORE)).
    intros e0 IH H0 C y (c & Hc & Hy) Ny. assert (Wc : In c (elements t)) by exact (element_child t e0 c H0 Hc).
    destruct (is_node (el_tree c)) eqn:Nc; [|rewrite (leaf_alone c y Nc Hy) in Ny; congruence].
    assert (K0 : a_node (el_kind e0) e0).
    { unfold a_node, el_kind. destruct (el_tree e0) as [k s|k cs] eqn:T; [|eauto]. unfold children_with_tokens in Hc. rewrite T in Hc. destruct Hc. }
    assert (Cc : calm c /\ el_kind c <> LUDTWIG_DIRECTIVE_IGNORE).
    { destruct (child_kind e0 c _ H0 K0 Hc Nc) as [E|(m & Em & X)].
      - unfold calm. rewrite E. split; [now left|]. intros X. discriminate X.
      - exact (calm_closed _ m _ C Em X). }
    apply below_or in Hy as [->|Hy]; [exact Cc|]. exact (IH c Hc Wc (proj1 Cc) y Hy Ny).
  Qed.
  Lemma calm_inside e0 : In e0 (elements t) -> calm e0 -> forall y, below e0 y -> ~ a_node LUDTWIG_DIRECTIVE_IGNORE y.
  Proof.
    intros H0 C y By (cs & K). assert (Ny : is_node (el_tree y) = true) by now rewrite K.
    apply (proj2 (calm_below e0 H0 C y By Ny)). unfold el_kind. now rewrite K.
  Qed.

  (** Where an element that a rule looks at can be, seen from an ignored one. *)
  Lemma around_visible rule d e e0 : ignore_before rule d e -> In e (elements t) -> In e0 (elements t) -> visible rule e0 ->
    el_end e <= el_start e0 \/ el_end e0 <= el_start e \/ (below e0 e /\ below e0 d).
  Proof.
    intros B He H0 V. destruct (elements_nested t e e0 He H0) as [A|[A|[A|A]]]; auto.
    - right. right. apply below_or in A as [->|A]; [destruct (hidden rule d e0 e0 B (preorder_self _) V)|]. split; [exact A|exact (neighbour_below rule d e e0 B A)].
    - destruct (hidden rule d e e0 B A V).
  Qed.
  Lemma calm_apart rule d e e0 s : ignore_before rule d e -> In e (elements t) -> In e0 (elements t) -> visible rule e0 -> calm e0 ->
    el_start e0 <= sg_start s -> sg_end s <= el_end e0 -> leaves_alone s e.
  Proof.
    intros B He H0 V C S E. destruct (around_visible rule d e e0 B He H0 V) as [A|[A|[_ A]]]; [right; lia|left; lia|].
    exfalso. destruct B as (_ & K & _). exact (calm_inside e0 H0 C d A K).
  Qed.
  (** A token, or an edge of an element, directly below an element that a rule looks at. *)
  Lemma child_apart rule d e e0 x s : ignore_before rule d e -> In e (elements t) -> is_node (el_tree e) = true -> In e0 (elements t) -> visible rule e0 ->
    up 1 x = Some e0 -> whole_token t x s \/ inserted t x s -> leaves_alone s e.
  Proof.
    intros B He Ne H0 V U W. assert (Hx : In x (elements t)) by (destruct W as [[W _]|[W _]]; exact W).
    assert (P : parent x = Some e0) by (cbn [up] in U; destruct (parent x); [exact U|discriminate U]).
    assert (X : In x (preorder_elem e) -> x = e).
    { intros X. apply below_or in X as [X|X]; [exact X|]. apply below_parent in X as (q & Q1 & Q2 & _). rewrite P in Q1. injection Q1 as <-. destruct (hidden rule d e e0 B Q2 V). }
    destruct (elements_nested t e x He Hx) as [A|[A|[A|A]]].
    - destruct W as [(_ & _ & S & E)|(_ & S & [E|E])]; pose proof (PropFits.start_end x); right; lia.
    - destruct W as [(_ & _ & S & E)|(_ & S & [E|E])]; pose proof (PropFits.start_end x); left; lia.
    - destruct W as [(_ & N & S & E)|(_ & S & E)].
      + exfalso. rewrite <- (leaf_alone x e N A) in N. rewrite Ne in N. discriminate N.
      + apply PropKeep.below_inside in A. destruct E as [E|E]; [left|right]; lia.
    - apply X in A. subst x. destruct W as [(_ & N & _)|(_ & S & [E|E])]; [rewrite Ne in N; discriminate N|left; lia|right; lia].
  Qed.
End Tree.
Lemma empty_lines_kinds ctx e s : is_node (el_tree e) = false -> In s (suggestions_of rule_whitespace_between_line_breaks ctx e) ->
  el_kind e = TK_LINE_BREAK /\ forall w, next_token e = Some w -> el_kind w = TK_WHITESPACE.
Proof.
  intros N. unfold suggestions_of. rewrite N. cbn [rl_token rule_whitespace_between_line_breaks].
  match goal with |- In s (flat_map _ match ?x with _ => _ end) -> _ => destruct x as [r|] eqn:E end; [|intros []]. intros _.
  destruct (negb _) eqn:B1 in E; [discriminate E|]. step E. destruct (negb _) eqn:B2 in E; [discriminate E|].
  apply negb_false_iff in B1, B2. apply kind_eqb_eq in B1, B2. split; [exact B1|]. intros w W. congruence.
Qed.
Lemma variables_none ctx e : suggestions_of rule_variable_definition_naming ctx e = [].
Proof.
  unfold suggestions_of. cbn [rl_node rl_token rule_variable_definition_naming]. destruct (is_node (el_tree e)) eqn:N; [|reflexivity]. cbv beta. rewrite N. cbn [negb].
  assert (G : forall b, flat_map rs_suggestions (check_literal_names e b) = []).
  { intros b. apply quiet_flat. apply Forall_forall. intros r Hr. apply in_flat_map in Hr. destruct Hr as (n & _ & Hr).
    destruct (literal_name n); [|destruct Hr]. apply in_app_or in Hr.
    destruct Hr as [Hr|Hr]; match type of Hr with In _ (if ?b then _ else _) => destruct b end;
      destruct Hr as [<-|[]] || destruct Hr; reflexivity. }
  destruct (el_kind e); rewrite ?G; reflexivity.
Qed.
Lemma support_child_kind k e x : support_child k e = Some x -> el_kind x = k.
Proof. unfold support_child. intros H. apply find_some in H as [_ H]. now apply kind_eqb_eq in H. Qed.
Lemma first_token_in : forall e x, first_token e = Some x -> In x (preorder_elem e).
Proof.
  apply (elem_induction (fun e => forall x, first_token e = Some x -> In x (preorder_elem e))).
  intros [[k s|k [|c r]] off p] IH x H; cbn in H; [injection H as <-; apply preorder_self|discriminate H|].
  apply below_in. exists (mkElem c off (mkCrumb k off [] r :: p)). split; [left; reflexivity|]. apply IH; [left; reflexivity|exact H].
Qed.
Lemma last_token_in : forall e x, last_token e = Some x -> In x (preorder_elem e) /\ is_node (el_tree x) = false.
Proof.
  apply (elem_induction (fun e => forall x, last_token e = Some x -> In x (preorder_elem e) /\ is_node (el_tree x) = false)).
  intros [[k s|k cs] off p] IH x H; [cbn in H; injection H as <-; split; [apply preorder_self|reflexivity]|].
  unfold last_token in H. cbn [el_tree el_off el_path last_token_at] in H.
  assert (G : forall cs' l o, (forall y, In y (elems_of k off p l o cs') -> In y (children_with_tokens (mkElem (Node k cs) off p))) ->
    (fix go (left : list tree) (o : nat) (cs : list tree) : option elem :=
       match cs with [] => None | [c] => last_token_at c o (mkCrumb k off left [] :: p) | c :: r => go (c :: left) (o + tree_len c) r end) l o cs' = Some x ->
    In x (preorder_elem (mkElem (Node k cs) off p)) /\ is_node (el_tree x) = false).
  { induction cs' as [|c r IHr]; intros l o I E; [discriminate E|]. destruct r as [|c' r].
    - assert (Hc : In (mkElem c o (mkCrumb k off l [] :: p)) (children_with_tokens (mkElem (Node k cs) off p))) by (apply I; left; reflexivity).
      destruct (IH _ Hc x E) as [X N]. split; [|exact N]. apply below_in. eauto using ex_intro, conj.
      exists (mkElem c o (mkCrumb k off l [] :: p)). auto.
    - apply (IHr (c :: l) (o + tree_len c)); [|exact E]. intros y Hy. apply I. right. exact Hy. }
  apply (G cs [] off); [|exact H]. intros y Hy. exact Hy.
Qed.
Lemma sibling_parent x y : next_sibling_or_token x = Some y -> parent y = parent x.
Proof.
  unfold next_sibling_or_token, parent. destruct (el_path x) as [|c p]; [discriminate|]. destruct (cr_right c) as [|r rs]; [discriminate|]. intros [= <-].
  cbn [el_path el_tree cr_kind cr_off cr_left cr_right]. rewrite !rev_append_rev. cbn [rev]. rewrite <- app_assoc. reflexivity.
Qed.
Lemma lineage_up_to x : forall p, In x (lineage p) -> exists k, up k p = Some x.
Proof.
  intros p. unfold lineage. generalize (length (el_path p)) as n. intros n. revert p. induction n as [|n IH]; intros p; cbn [lineage_up].
  - intros [<-|[]]. exists 0. reflexivity.
  - intros [<-|H]; [exists 0; reflexivity|]. destruct (parent p) as [q|] eqn:P; [|destruct H]. destruct (IH q H) as (k & U). exists (S k). cbn [up]. now rewrite P.
Qed.
Lemma marked_neighbour y q names : names_before_node y = Some names -> parent y = Some q -> exists dd, In dd (children_with_tokens q) /\ a_node LUDTWIG_DIRECTIVE_IGNORE dd.
Proof.
  unfold names_before_node, parent. destruct (el_path y) as [|c p]; [discriminate|]. destruct (find is_node (cr_left c)) as [d|] eqn:F; [|discriminate].
  destruct (is_directive d) eqn:D; [|discriminate]. intros _ [= <-]. apply find_some in F as [F _].
  set (q := mkElem _ _ _). assert (I : In d (map el_tree (children_with_tokens q))).
  { rewrite children_with_tokens_trees. unfold q. cbn [el_tree children]. rewrite rev_append_rev. apply in_or_app. left. now apply -> in_rev. }
  apply in_map_iff in I as (dd & E & I). exists dd. split; [exact I|]. unfold a_node. rewrite E. unfold is_directive in D. destruct d as [|k cs]; [discriminate D|]. destruct k; try discriminate D. eauto.
Qed.

Section Run.
  Context (dbg : bool) (src : text) (t : tree) (errs : list perror) (HP : parse_src dbg src = OK (t, errs)).
  Context (cf : config) (rules : list rule) (results : list result).
  Context (HI : incl rules RULE_DEFINITIONS) (HN : NoDup (map rl_name rules)) (HR : run_rules cf rules t = Done results).

  Lemma from_element rl s : In rl rules ->
    (forall roots, rl_root rl (mkCtx cf false) (root_elem t) = Done roots -> flat_map rs_suggestions roots = []) ->
    In s (flat_map rs_suggestions (of_rule (rl_name rl) results)) ->
    exists ctx e0, cx_config ctx = cf /\ In e0 (elements t) /\ visible (rl_name rl) e0 /\ In s (suggestions_of rl ctx e0).
  Proof.
    intros Hin Hroot. destruct (of_run cf rules t results HI HN HR rl Hin) as (roots & fl & Er & ->).
    rewrite flat_map_app, (Hroot roots Er). cbn [app]. rewrite flat_map_flat. intros H. apply in_flat_map in H as (e0 & H0 & H).
    apply filter_In in H0 as [H0 V]. destruct (switched_off (rl_name rl) e0) eqn:O; [destruct H|]. exists (mkCtx cf (fl e0)), e0. split; [reflexivity|]. split; [exact H0|].
    split; [split; [exact V|exact O]|exact H].
  Qed.
  Lemma tidy_inside k e0 l s : tidy_edits t k e0 l -> In s l -> el_start e0 <= sg_start s /\ sg_end s <= el_end e0.
  Proof.
    intros [_ F] H. rewrite Forall_forall in F. destruct (F s H) as (x & U & W).
    assert (Hx : In x (elements t)) by (destruct W as [[W _]|[W _]]; exact W).
    pose proof (PropKeep.below_inside _ _ (up_below t k x e0 Hx U)). pose proof (PropFits.start_end x).
    destruct W as [(_ & _ & S & E)|(_ & S & [E|E])]; lia.
  Qed.

  Context (d e : elem) (He : In e (elements t)) (Ne : is_node (el_tree e) = true).

  Lemma tidy_alone k rl s : In rl rules -> ignore_before (rl_name rl) d e -> rl_root rl = no_root ->
    (forall ctx e0, cx_config ctx = cf -> In e0 (elements t) -> tidy_edits t k e0 (suggestions_of rl ctx e0)) ->
    k = 1 \/ (forall ctx e0 s, In s (suggestions_of rl ctx e0) -> calm e0) ->
    In s (flat_map rs_suggestions (of_rule (rl_name rl) results)) -> leaves_alone s e.
  Proof.
    intros Hin B Er T C H. apply (from_element rl s Hin) in H as (ctx & e0 & Ec & H0 & V & H).
    2: { intros roots R. rewrite Er in R. injection R as <-. reflexivity. }
    pose proof (T ctx e0 Ec H0) as Te. destruct C as [-> |C].
    - destruct Te as [_ F]. rewrite Forall_forall in F. destruct (F s H) as (x & U & W). exact (child_apart t (rl_name rl) d e e0 x s B He Ne H0 V U W).
    - destruct (tidy_inside k e0 _ s Te H) as [S E]. exact (calm_apart dbg src t errs HP (rl_name rl) d e e0 s B He H0 V (C ctx e0 s H) S E).
  Qed.
  Lemma node_rule_calm name f K : In K calm_kinds -> (forall ctx x r, f ctx x = Some r -> a_node K x) ->
    forall ctx e0 s, In s (suggestions_of (node_rule name f) ctx e0) -> calm e0.
  Proof.
    intros HK H ctx e0 s. unfold suggestions_of, node_rule. cbn [rl_node rl_token]. destruct (is_node (el_tree e0)); [|intros []].
    destruct (f ctx e0) as [r|] eqn:F; [|intros []]. intros _. destruct (H ctx e0 r F) as (cs & X). unfold calm, el_kind. rewrite X. exact HK.
  Qed.

  Lemma same_as_alone name k sh new s : Schema.junk k = false -> In (rule_same_as name k sh new) rules -> ignore_before name d e ->
    In s (flat_map rs_suggestions (of_rule name results)) -> leaves_alone s e.
  Proof.
    intros J Hin B H. apply (from_element (rule_same_as name k sh new) s Hin) in H as (ctx & e0 & _ & H0 & V & H).
    2: { intros roots R. cbn in R. injection R as <-. reflexivity. }
    apply same_as_suggestion in H as (o & r & U & Bo & Hr & S & E); [|exact J].
    destruct (comparison_place t e0 o r H0 Bo Hr) as [P1 P2]. apply (calm_apart dbg src t errs HP name d e e0 s B He H0 V); [|lia|lia].
    destruct U as ((cs & X) & _). unfold calm, el_kind. rewrite X. cbn. tauto.
  Qed.

  Lemma line_endings_alone s : In rule_line_ending rules -> ignore_before (rl_name rule_line_ending) d e ->
    In s (flat_map rs_suggestions (of_rule (rl_name rule_line_ending) results)) -> leaves_alone s e.
  Proof.
    intros Hin B H. apply (from_element rule_line_ending s Hin) in H as (ctx & e0 & _ & H0 & V & H).
    2: { intros roots R. apply PropFound6.done_inj in R. now subst. }
    destruct (is_node (el_tree e0)) eqn:N; [unfold suggestions_of in H; rewrite N in H; destruct H|].
    apply line_endings_at in H; [|exact N]. destruct (around_visible t _ d e e0 B He H0 V) as [A|[A|[(c & Hc & _) _]]]; [right; lia|left; lia|].
    exfalso. unfold children_with_tokens in Hc. destruct (el_tree e0); [destruct Hc|discriminate N].
  Qed.

  (** Tokens that follow each other. *)
  Lemma next_in_list x y : In x (elements t) -> is_node (el_tree x) = false -> In y (elements t) -> is_node (el_tree y) = false -> el_start y = el_end x ->
    exists a b, Tidy.tokens_of (elements t) = a ++ x :: y :: b.
  Proof.
    intros Hx Nx Hy Ny E. pose proof (token_nonempty dbg src t errs x HP Hx Nx) as Lx. pose proof (token_nonempty dbg src t errs y HP Hy Ny) as Ly.
    pose proof (tokens_tiled _ _ _ (PropIndent.elements_tiled t)) as T.
    assert (Ix : In x (Tidy.tokens_of (elements t))) by (apply in_tokens; auto). assert (Iy : In y (Tidy.tokens_of (elements t))) by (apply in_tokens; auto).
    pose proof (tokens_nodes t) as F. apply in_split in Ix as (a & b & Ix). rewrite Ix in *. apply PropIndent.tiled_split in T as [T1 T2]; [|exact Nx].
    apply Forall_app in F as [_ F]. inversion F as [|? ? _ F']; subst.
    apply in_app_or in Iy as [Iy|[Iy|Iy]].
    - exfalso. apply in_split in Iy as (m1 & m2 & ->). apply PropIndent.tiled_split in T1 as [_ T1]; [|exact Ny]. apply PropIndent.tiled_le in T1. lia.
    - subst y. lia.
    - destruct b as [|z b]; [destruct Iy|]. inversion F' as [|? ? Nz F'']; subst. cbn [PropIndent.tiled] in T2. rewrite Nz in T2. destruct T2 as [Sz T2].
      destruct Iy as [->|Iy]; [exists a, b; reflexivity|]. exfalso. apply in_split in Iy as (m1 & m2 & ->). apply PropIndent.tiled_split in T2 as [T2 _]; [|exact Ny].
      apply PropIndent.tiled_le in T2. assert (Iz : In z (elements t)) by (apply (in_tokens t z); rewrite Ix; apply in_or_app; right; right; now left).
      pose proof (token_nonempty dbg src t errs z HP Iz Nz). lia.
  Qed.
  Lemma empty_lines_alone s : In rule_whitespace_between_line_breaks rules -> ignore_before (rl_name rule_whitespace_between_line_breaks) d e ->
    In s (flat_map rs_suggestions (of_rule (rl_name rule_whitespace_between_line_breaks) results)) -> leaves_alone s e.
  Proof.
    intros Hin B H. apply (from_element rule_whitespace_between_line_breaks s Hin) in H as (ctx & e0 & _ & H0 & V & H).
    2: { intros roots R. apply PropFound6.done_inj in R. now subst. }
    destruct (is_node (el_tree e0)) eqn:N; [unfold suggestions_of in H; rewrite N in H; destruct H|].
    destruct (empty_lines_kinds ctx e0 s N H) as [K0 Kw].
    destruct (empty_lines_at ctx e0 s N H) as (w & W & _ & S & E).
    destruct (PropIndent.next_token_adjacent t e0 w (elements_within _ _ H0) W) as [A Nw].
    assert (Hw : In w (elements t)) by (apply within_elements; eapply within_next_token; [apply elements_within; exact H0|exact W]).
    destruct (next_in_list e0 w H0 N Hw Nw A) as (a & b & L).
    assert (Sb : next_sibling_or_token e0 = Some w) by (apply (Tidy.C08_white_space_stays_together dbg src t errs HP a e0 w b L); unfold Tidy.blank; [rewrite K0|rewrite (Kw w W)]; reflexivity).
    destruct (elements_nested t e w He Hw) as [X|[X|[X|X]]]; [right; lia|left; lia| |].
    - exfalso. rewrite <- (leaf_alone w e Nw X) in Nw. rewrite Ne in Nw. discriminate Nw.
    - exfalso. apply below_or in X as [->|X]; [rewrite Ne in Nw; discriminate Nw|]. apply below_parent in X as (q & Q1 & Q2 & _).
      assert (Q0 : parent e0 = Some q) by (rewrite <- Q1; symmetry; exact (sibling_parent e0 w Sb)).
      refine (hidden _ d e e0 B _ V). apply (preorder_trans e q e0 Q2). apply below_in. exists e0. split; [exact (parent_children t e0 q H0 Q0)|apply preorder_self].
  Qed.

  (** Indentation *)
  Lemma indentation_alone s : In rule_indentation rules -> ignore_before (rl_name rule_indentation) d e -> no_directive_inside e ->
    In s (flat_map rs_suggestions (of_rule (rl_name rule_indentation) results)) -> leaves_alone s e.
  Proof.
    intros Hin B ND H. pose proof (C63_indentation_is_reported_exactly dbg src t errs cf rules results HP HI HN Hin HR) as (xs & _ & X2 & X3).
    change (filter (fun r => text_eqb (rs_rule r) (txt "indentation"%string)) results) with (of_rule (rl_name rule_indentation) results) in X3.
    apply in_flat_map in H as (r & Hr & H). assert (G : exists x, In x xs /\ indentation_report cf x (show r)).
    { clear -X3 Hr. induction X3 as [|r0 y rs xs H _ IH]; [destruct Hr|]. destruct Hr as [->|Hr]; [exists y; split; [now left|exact H]|].
      destruct (IH Hr) as (z & Hz & E). exists z. split; [now right|exact E]. }
    destruct G as (x & Hx & D). apply X2 in Hx as (Fx & Kx & _ & _). clear X2 X3.
    unfold indentation_report in D. apply (f_equal sh_edits) in D. apply shown_one in D as (g & Eg & S & E). rewrite Eg in H. destruct H as [<-|[]].
    destruct Fx as (u & v & Ew & _). assert (Hx : In x (walked t)) by (rewrite Ew; apply in_or_app; right; now left).
    unfold walked in Hx. apply filter_In in Hx as [Hx Nx]. apply filter_In in Hx as [Hx Sx]. apply negb_true_iff in Nx.
    assert (Le : blen (leading x) <= blen (el_text x)) by (unfold leading; destruct (kind_eqb (el_kind x) TK_WHITESPACE); [lia|cbn [blen]; lia]).
    pose proof (el_end_text x) as Ex.
    destruct (elements_nested t e x He Hx) as [X|[X|[X|X]]]; [right; lia|left; lia| |].
    - exfalso. rewrite <- (leaf_alone x e Nx X) in Nx. rewrite Ne in Nx. discriminate Nx.
    - exfalso. assert (L : In e (lineage x)) by (destruct (lineage_below e x X) as (l & ->); apply in_or_app; right; rewrite lineage_cons; now left).
      pose proof (proj2 (names_are _ d e B)) as Nm. destruct B as (_ & _ & _ & [Bl|Nd]).
      + unfold seen in Sx. apply negb_true_iff in Sx. assert (Y : existsb tree_hides (lineage x) = true); [|congruence].
        apply existsb_exists. exists e. split; [exact L|]. unfold tree_hides. rewrite Ne, Nm, Bl. cbn [blanket andb]. apply orb_true_r.
      + apply Kx. exists e. split; [exact L|]. split; [unfold tree_marks; rewrite Ne, Nm; cbn [lists andb]; now apply mem_text_in|].
        intros (b & s0 & y & Hb & Hae & Hs & Hy & My & _). unfold tree_marks in My. apply andb_true_iff in My as [_ My].
        assert (Wb : within t b) by (eapply Settled.lineage_inside; eauto).
        unfold left_siblings in Hs. destruct (parent b) as [p|] eqn:Q; [|destruct Hs]. assert (Hs' : In s0 (children_with_tokens p)) by (rewrite <- (firstn_skipn (left_count b)); apply in_or_app; now left).
        assert (Wp : In p (elements t)) by (apply within_elements; eapply within_parent; eauto).
        assert (Ep : In p (preorder_elem e)).
        { rewrite lineage_cons, Q in Hae. cbn [tl] in Hae. destruct (lineage_up_to e p Hae) as (k & U). exact (up_below t k p e Wp U). }
        assert (By : below e y).
        { pose proof (parent_below e p s0 Ep Hs') as (c & Hc & Hsc). exists c. split; [exact Hc|exact (preorder_trans c s0 y Hsc Hy)]. }
        apply below_parent in By as (q & Q1 & Q2 & _). unfold lists in My. destruct (names_before_node y) as [names|] eqn:Ny; [|discriminate My].
        destruct (marked_neighbour y q names Ny Q1) as (dd & Hd & Kd). refine (ND dd _ Kd). apply below_in. exact (parent_below e q dd Q2 Hd).
  Qed.

  Lemma exactly_from {A} (Q : A -> Prop) D name s : exactly results name Q D -> In s (flat_map rs_suggestions (of_rule name results)) ->
    exists x r, Q x /\ D x (show r) /\ In s (rs_suggestions r).
  Proof.
    intros (xs & _ & X2 & X3) H. change (filter (fun r => text_eqb (rs_rule r) name) results) with (of_rule name results) in X3.
    apply in_flat_map in H as (r & Hr & H). assert (G : exists x, In x xs /\ D x (show r)).
    { clear -X3 Hr. induction X3 as [|r0 y rs xs H _ IH]; [destruct Hr|]. destruct Hr as [->|Hr]; [exists y; split; [now left|exact H]|].
      destruct (IH Hr) as (z & Hz & E). exists z. split; [now right|exact E]. }
    destruct G as (x & Hx & G). exists x, r. split; [now apply X2|auto].
  Qed.
  Lemma both_contain x y z : In x (elements t) -> In y (elements t) -> In z (elements t) -> is_node (el_tree z) = false -> In z (preorder_elem x) -> In z (preorder_elem y) ->
    In x (preorder_elem y) \/ In y (preorder_elem x).
  Proof.
    intros Hx Hy Hz Nz Zx Zy. pose proof (token_nonempty dbg src t errs z HP Hz Nz). apply PropKeep.below_inside in Zx, Zy.
    destruct (elements_nested t x y Hx Hy) as [A|[A|A]]; [lia|lia|exact A].
  Qed.
  (** A part of a block that is looked at is no part of an ignored element. *)
  Lemma part_of_block rule b c x : ignore_before rule d e -> In b (elements t) -> visible rule b -> a_node TWIG_BLOCK b ->
    In c (children_with_tokens b) -> calm c -> In x (elements t) -> is_node (el_tree x) = false -> In x (preorder_elem c) -> In x (preorder_elem e) -> False.
  Proof.
    intros B Hb V Kb Hc C Hx Nx Xc Xe. assert (Wc : In c (elements t)) by exact (element_child t b c Hb Hc).
    pose proof (PropFound3.child_parent _ _ Hc) as Pc.
    assert (Same : e <> c).
    { intros ->. destruct B as ((p & l & r & E) & K & _). assert (I : In c (children_with_tokens p)) by (rewrite E; apply in_or_app; right; right; now left).
      apply PropFound3.child_parent in I. rewrite Pc in I. injection I as <-. assert (Id : In d (children_with_tokens b)) by (rewrite E; apply in_or_app; right; now left).
      destruct K as (cs & K). assert (Nd : is_node (el_tree d) = true) by now rewrite K. assert (Kd : el_kind d = LUDTWIG_DIRECTIVE_IGNORE) by (unfold el_kind; now rewrite K).
      destruct (child_kind dbg src t errs HP b d TWIG_BLOCK Hb Kb Id Nd) as [X|(m & Em & X)]; rewrite Kd in X; [discriminate X|].
      cbn in Em. injection Em as <-. cbn in X. decompose [or] X; try discriminate; try contradiction. }
    destruct (both_contain e c x He Wc Hx Nx Xe Xc) as [A|A]; apply below_or in A as [A|A]; try congruence.
    - destruct B as (B1 & K & B2). exact (calm_inside dbg src t errs HP c Wc C d (neighbour_below rule d e c (conj B1 (conj K B2)) A) K).
    - apply below_parent in A as (q & Q1 & Q2 & _). rewrite Pc in Q1. injection Q1 as <-. exact (hidden rule d e b B Q2 V).
  Qed.
  Lemma comment_before rule b p c l r x : ignore_before rule d e -> ~ comment_of_block e -> In b (elements t) -> visible rule b -> a_node TWIG_BLOCK b ->
    parent b = Some p -> child_nodes p = l ++ c :: b :: r -> a_comment c ->
    In x (elements t) -> is_node (el_tree x) = false -> In x (preorder_elem c) -> In x (preorder_elem e) -> False.
  Proof.
    intros B NC Hb V Kb Pb Ep Ac Hx Nx Xc Xe.
    assert (Hp : In p (elements t)) by (apply within_elements; eapply within_parent; [apply elements_within; exact Hb|exact Pb]).
    assert (Hc : In c (children_with_tokens p)).
    { assert (X : In c (child_nodes p)) by (rewrite Ep; apply in_or_app; right; now left). unfold child_nodes in X. now apply filter_In in X as [X _]. }
    assert (Wc : In c (elements t)) by exact (element_child t p c Hp Hc).
    destruct (both_contain e c x He Wc Hx Nx Xe Xc) as [A|A]; apply below_or in A as [A|A].
    - subst c. apply NC. split; [exact Ac|]. exists p, l, b, r. auto.
    - assert (C : calm c) by (unfold calm; destruct Ac as [-> | [-> | [-> | ->]]]; cbn; tauto).
      pose proof (neighbour_below rule d e c B A) as Bd. destruct B as (_ & K & _). exact (calm_inside dbg src t errs HP c Wc C d Bd K).
    - subst c. apply NC. split; [exact Ac|]. exists p, l, b, r. auto.
    - apply below_parent in A as (q & Q1 & Q2 & _). rewrite (PropFound3.child_parent _ _ Hc) in Q1. injection Q1 as <-.
      refine (hidden rule d e b B _ V). apply (preorder_trans e p b Q2). apply below_in. exists b. split; [exact (parent_children t b p Hb Pb)|apply preorder_self].
  Qed.
  Lemma block_lines_alone s : In rule_block_line_breaks rules -> ignore_before (rl_name rule_block_line_breaks) d e -> ~ comment_of_block e ->
    In s (flat_map rs_suggestions (of_rule (rl_name rule_block_line_breaks) results)) -> leaves_alone s e.
  Proof.
    intros Hin B NC H. pose proof (C60_line_breaks_around_blocks_are_reported_exactly dbg src t errs cf rules results HP HI HN Hin HR) as X.
    destruct (exactly_from _ _ (rl_name rule_block_line_breaks) s X H) as ([b sd] & r & (Hb & V & Kb & _) & (x & n & W & D) & Hs). clear X H. cbn [fst snd] in *.
    destruct (wanted_token t cf b sd x n Hb W) as [Hx Nx]. pose proof (PropFits.start_end x) as Lx.
    assert (P : sg_start s = el_start x /\ sg_end s <= el_end x).
    { destruct D as [[_ D]|[_ D]]; apply (f_equal sh_edits) in D; apply shown_one in D as (g & Eg & S & E); rewrite Eg in Hs; destruct Hs as [<-|[]]; lia. }
    destruct (elements_nested t e x He Hx) as [X|[X|[X|X]]]; [right; lia|left; lia| |]; exfalso.
    { rewrite <- (leaf_alone x e Nx X) in Nx. rewrite Ne in Nx. discriminate Nx. }
    destruct W as (p & before & after & prev & next & st & en & (Pb & Ep) & _ & _ & Hst & Hen & _ & W).
    destruct sd.
    - destruct W as (lead & Ld & F & _). assert (Xl : In x (preorder_elem lead)) by (apply first_token_in; exact F).
      destruct Ld as [(c & r0 & -> & Ac & ->)|[-> _]].
      + cbn [rev] in Ep. rewrite <- app_assoc in Ep. cbn [app] in Ep. exact (comment_before _ b p c (rev r0) after x B NC Hb V Kb Pb Ep Ac Hx Nx Xl X).
      + unfold starting_block in Hst. pose proof (support_child_child _ _ _ Hst) as Hc. pose proof (support_child_kind _ _ _ Hst) as Kc.
        refine (part_of_block _ b st x B Hb V Kb Hc _ Hx Nx Xl X). unfold calm. rewrite Kc. cbn. tauto.
    - destruct W as ((l & Hl & Hn) & _). unfold ending_block in Hen. pose proof (support_child_child _ _ _ Hen) as Hc. pose proof (support_child_kind _ _ _ Hen) as Kc.
      assert (Wen : In en (elements t)) by exact (element_child t b en Hb Hc).
      assert (Wl : within t l) by (eapply within_last_token; [apply elements_within; exact Wen|exact Hl]). pose proof (within_elements _ _ Wl) as Il.
      destruct (last_token_in en l Hl) as [Len Nl]. destruct (PropIndent.next_token_adjacent t l x Wl Hn) as [A _].
      pose proof (token_nonempty dbg src t errs l HP Il Nl) as Ll. pose proof (token_nonempty dbg src t errs x HP Hx Nx) as Lx'.
      assert (Cen : calm en) by (unfold calm; rewrite Kc; cbn; tauto).
      assert (NoL : ~ In l (preorder_elem e)) by (intros Y; exact (part_of_block _ b en l B Hb V Kb Hc Cen Il Nl Len Y)).
      pose proof (PropKeep.below_inside _ _ X) as Xin.
      destruct (elements_nested t e l He Il) as [Y|[Y|[Y|Y]]]; [lia| | |contradiction].
      2: { rewrite <- (leaf_alone l e Nl Y) in Nl. rewrite Ne in Nl. discriminate Nl. }
      pose proof B as ((q & ql & qr & Eq) & (cs & Kd) & Td & _). destruct (neighbour q ql d e qr Eq) as (_ & _ & _ & _ & _ & Ad).
      assert (Hd : In d (elements t)).
      { assert (Q : In e (children_with_tokens q)) by (rewrite Eq; apply in_or_app; right; right; now left). apply PropFound3.child_parent in Q.
        assert (Wq : In q (elements t)) by (apply within_elements; eapply within_parent; [apply elements_within; exact He|exact Q]).
        apply (element_child t q d Wq). rewrite Eq. apply in_or_app. right. now left. }
      assert (Ld : el_start d < el_end d).
      { rewrite el_end_text. destruct (el_text d) as [|c0 tl0]; [congruence|]. cbn [blen]. pose proof (utf8_len_pos c0). lia. }
      assert (Nd : is_node (el_tree d) = true) by now rewrite Kd. assert (Kd' : el_kind d = LUDTWIG_DIRECTIVE_IGNORE) by (unfold el_kind; now rewrite Kd).
      assert (Dl : In l (preorder_elem d)).
      { destruct (elements_nested t d l Hd Il) as [Z|[Z|[Z|Z]]]; [lia|lia| |exact Z]. rewrite <- (leaf_alone l d Nl Z) in Nl. rewrite Nd in Nl. discriminate Nl. }
      destruct (both_contain d en l Hd Wen Il Nl Dl Len) as [Z|Z]; apply below_or in Z as [Z|Z].
      + rewrite <- Z, Kd' in Kc. discriminate Kc.
      + apply (calm_inside dbg src t errs HP en Wen Cen d Z). exists cs. exact Kd.
      + rewrite Z, Kd' in Kc. discriminate Kc.
      + apply below_parent in Z as (z & Z1 & Z2 & _). rewrite (PropFound3.child_parent _ _ Hc) in Z1. injection Z1 as <-.
        destruct Kb as (bs & Kb). assert (Kb' : el_kind b = TWIG_BLOCK) by (unfold el_kind; now rewrite Kb).
        apply below_or in Z2 as [Z2|Z2]; [rewrite Z2, Kd' in Kb'; discriminate Kb'|].
        assert (Cd : calm d) by (unfold calm; rewrite Kd'; cbn; tauto). assert (Nb : is_node (el_tree b) = true) by now rewrite Kb.
        destruct (calm_below dbg src t errs HP d Hd Cd b Z2 Nb) as [Cb _]. unfold calm in Cb. rewrite Kb' in Cb. cbn in Cb. decompose [or] Cb; try discriminate; try contradiction.
  Qed.

  (** * All rules *)
  Definition spared (rule : text) : Prop :=
    ignore_before rule d e /\ (rule = txt "indentation"%string -> no_directive_inside e) /\ (rule = txt "twig-block-line-breaks"%string -> ~ comment_of_block e).
  Lemma rule_alone rl s : In rl rules -> spared (rl_name rl) -> In s (flat_map rs_suggestions (of_rule (rl_name rl) results)) -> leaves_alone s e.
  Proof.
    intros Hin (B & ND & NC) H.
    assert (Q : forall k, rl_root rl = no_root -> (forall ctx x, cx_config ctx = cf -> In x (elements t) -> tidy_edits t k x (suggestions_of rl ctx x)) ->
      k = 1 \/ (forall ctx x s, In s (suggestions_of rl ctx x) -> calm x) -> leaves_alone s e).
    { intros k Er T C. exact (tidy_alone k rl s Hin B Er T C H). }
    assert (Z : (forall roots, rl_root rl (mkCtx cf false) (root_elem t) = Done roots -> flat_map rs_suggestions roots = []) -> (forall ctx x, suggestions_of rl ctx x = []) -> leaves_alone s e).
    { intros R N. destruct (from_element rl s Hin R H) as (ctx & x & _ & _ & _ & X). rewrite N in X. destruct X. }
    assert (NQ : forall name f, rl = node_rule name f -> (forall ctx x r, f ctx x = Some r -> quiet r) -> leaves_alone s e).
    { intros name f -> F. apply Z; [intros roots R; cbn in R; injection R as <-; reflexivity|]. intros ctx x. unfold suggestions_of, node_rule. cbn [rl_node rl_token].
      destruct (is_node (el_tree x)); [|reflexivity]. destruct (f ctx x) as [r|] eqn:E; [|reflexivity]. cbn [flat_map]. now rewrite (F ctx x r E). }
    pose proof (HI rl Hin) as K. unfold RULE_DEFINITIONS in K.
    destruct K as [K|K].
    { subst rl. eapply NQ; [reflexivity|]. intros c x r EE. cbv beta in EE. step EE. step EE. step EE; [|discriminate EE]. injection EE as <-. reflexivity. }
    destruct K as [K|K]; [subst rl; exact (empty_lines_alone s Hin B H)|].
    destruct K as [K|K]; [subst rl; exact (line_endings_alone s Hin B H)|].
    destruct K as [K|K]; [subst rl; exact (indentation_alone s Hin B (ND eq_refl) H)|].
    destruct K as [K|K]; [subst rl; exact (block_lines_alone s Hin B (NC eq_refl) H)|].
    destruct K as [K|K]; [subst rl; apply (Q 1); [reflexivity|apply block_names_tidy|now left]|].
    destruct K as [K|K]; [subst rl; apply (Q 1); [reflexivity|apply attribute_names_tidy|now left]|].
    destruct K as [K|K]; [subst rl; apply (Q 1); [reflexivity|apply logic_tidy|now left]|].
    destruct K as [K|K]; [subst rl; apply (Q 1); [reflexivity|apply logic_tidy|now left]|].
    destruct K as [K|K]; [subst rl; apply (Q 1); [reflexivity|apply twig_quotes_tidy|now left]|].
    destruct K as [K|K]; [subst rl; apply (Q 1); [reflexivity|apply html_quotes_tidy|now left]|].
    destruct K as [K|K].
    { subst rl. apply (Q 2); [reflexivity|apply hash_keys_tidy|]. right. apply (node_rule_calm _ _ TWIG_LITERAL_HASH_KEY); [cbn; tauto|].
      intros ctx x r EE. cbv beta in EE. step EE. apply cast_iff in E as [_ E]. exact E. }
    destruct K as [K|K]; [subst rl; apply (Q 1); [reflexivity|apply extends_tidy|now left]|].
    destruct K as [K|K]; [subst rl; eapply same_as_alone; [|exact Hin|exact B|exact H]; reflexivity|].
    destruct K as [K|K]; [subst rl; eapply same_as_alone; [|exact Hin|exact B|exact H]; reflexivity|].
    destruct K as [K|K].
    { subst rl. apply Z; [intros roots; apply block_duplicate_quiet|]. intros ctx x. unfold suggestions_of. destruct (is_node (el_tree x)); reflexivity. }
    destruct K as [K|K].
    { subst rl. apply (Q 3); [reflexivity|apply json_tidy|]. right. apply (node_rule_calm _ _ TWIG_FILTER); [cbn; tauto|].
      intros ctx x r EE. cbv beta in EE. step EE. apply cast_iff in E as [_ E]. exact E. }
    destruct K as [K|K].
    { subst rl. apply Z; [intros roots; apply duplicate_id_quiet|]. intros ctx x. unfold suggestions_of. destruct (is_node (el_tree x)); reflexivity. }
    destruct K as [K|K].
    { subst rl. apply (Q 0); [reflexivity|intros; apply variables_quiet|]. right. intros ctx x s0 X. destruct (variables_quiet t ctx x) as [_ F].
      exfalso. revert X. rewrite variables_none. intros []. }
    destruct K as [K|K].
    { subst rl. eapply NQ; [reflexivity|]. intros c x r EE. cbv beta in EE. do 3 step EE. step EE; [|discriminate EE]. injection EE as <-. reflexivity. }
    destruct K as [K|K].
    { subst rl. eapply NQ; [reflexivity|]. intros c x r EE. cbv beta in EE. do 2 step EE. step EE; [discriminate EE|]. do 2 step EE. step EE; [|discriminate EE]. injection EE as <-. reflexivity. }
    destruct K as [K|[]].
    { subst rl. eapply NQ; [reflexivity|]. intros c x r EE. cbv beta in EE. do 1 step EE. step EE; [discriminate EE|]. do 2 step EE. step EE; [|discriminate EE]. injection EE as <-. reflexivity. }
  Qed.
End Run.

(** * C78 *)

(** C78 in full: no edit of a rule touches an element after an ignore directive for that rule.  It is
    refuted below.  What is proved: so it is, except for the indentation rule when another directive is
    inside of the element, and for twig-block-line-breaks when the element is a comment before a block. *)
Theorem C78_ignored_elements_are_left_alone_partial : forall dbg src t errs cf rules results d e rule s,
  parse_src dbg src = OK (t, errs) -> incl rules RULE_DEFINITIONS -> NoDup (map rl_name rules) -> run_rules cf rules t = Done results ->
  In e (elements t) -> is_node (el_tree e) = true -> ignore_before rule d e ->
  (rule = txt "indentation"%string -> no_directive_inside e) -> (rule = txt "twig-block-line-breaks"%string -> ~ comment_of_block e) ->
  In (rule, s) (rule_suggestions results) -> leaves_alone s e.
Proof.
  intros dbg src t errs cf rules results d e rule s HP HI HN HR He Ne B B1 B2 H.
  assert (Hr : exists rl, In rl rules /\ rl_name rl = rule).
  { pose proof H as Ha. apply in_flat_map in Ha as (r & Hr & Ha). apply in_map_iff in Ha as (s' & [= En _] & _). subst rule.
    destruct (proj1 (C52_reports_name_their_rule cf rules t results HI HR) r Hr) as (rl & Hl & En). eauto. }
  destruct Hr as (rl & Hl & <-).
  apply (rule_alone dbg src t errs HP cf rules results HI HN HR d e He Ne rl s Hl); [unfold spared; auto|].
  rewrite <- PropIndent.suggested_snd, <- of_name_suggestions. change s with (snd (rl_name rl, s)). apply in_map. apply filter_In. split; [exact H|].
  cbn [fst]. apply text_eqb_eq. reflexivity.
Qed.

(** So one round of fixes keeps the text of an element after a directive for all rules, if the edits of
    the round do not overlap in chains ([grouped], see C21). *)
Theorem C78_ignored_elements_keep_their_text_partial : forall dbg sort cf fc rs fc' rs' d e,
  sorts sort -> incl (fc_rules fc) RULE_DEFINITIONS -> NoDup (map rl_name (fc_rules fc)) ->
  consistent dbg cf fc rs -> round dbg sort cf fc rs fc' rs' -> grouped (rule_suggestions rs) ->
  In e (elements (fc_tree fc)) -> is_node (el_tree e) = true ->
  (forall rl, In rl (fc_rules fc) -> ignore_before (rl_name rl) d e) -> no_directive_inside e -> ~ comment_of_block e ->
  exists a b a' b', fc_source fc = a ++ el_text e ++ b /\ blen a = el_start e /\ fc_source fc' = a' ++ el_text e ++ b'.
Proof.
  intros dbg sort cf fc rs fc' rs' d e So HI HN (Pf & HR) (_ & _ & _ & sorted & chosen & S & Sel & A) G He Ne B ND NC.
  assert (HP : parse_src dbg (fc_source fc) = OK (fc_tree fc, fc_errors fc)).
  { unfold parse_file in Pf. destruct (parse_src dbg (fc_source fc)) as [[? ?]| |]; try discriminate Pf. injection Pf as -> ->. reflexivity. }
  assert (From : forall s, In s chosen -> exists p, In p (rule_suggestions rs) /\ snd p = s).
  { intros s H. destruct (PropIndent.chosen_incl _ _ Sel s H) as (p & Hp & <-). exists p. split; [|reflexivity].
    apply (Permutation_in _ (Permutation_sym (proj1 (So _ _ S)))). exact Hp. }
  assert (Fit : forall p, In p (rule_suggestions rs) -> fits (fc_source fc) (snd p)).
  { intros [n s] Hp. exact (PropFits.C38_suggestions_fit_the_text _ _ _ _ _ _ _ Pf HI HR n s Hp). }
  assert (Pr : proper (rule_suggestions rs)) by (intros p Hp; apply (Fit p Hp)).
  pose proof (C21_no_overlapping_edits_partial _ _ _ _ So S Sel G Pr) as NO.
  assert (O : in_order chosen).
  { destruct (So _ _ S) as [Pm Sd]. specialize (Sd G Pr). assert (PW : pairwise (fun a b => ordering a b <> Gt) chosen).
    { unfold select_suggestions in Sel. destruct (overlapping_rules sorted); [discriminate Sel|]. injection Sel as <-.
      apply pairwise_map_filter. eapply PropIndent.pairwise_impl; [|exact Sd]. intros a b H _ . exact H. }
    clear -NO PW. induction chosen as [|x l IH]; [constructor|]. destruct NO as [N1 N2], PW as [W1 W2]. constructor; [|auto].
    apply Forall_forall. intros y Hy. rewrite Forall_forall in N1, W1. specialize (N1 y Hy). specialize (W1 y Hy).
    apply ordering_lt. destruct (ordering x y) eqn:Q; [|reflexivity|contradiction]. apply ordering_eq in Q. contradiction. }
  destruct (C20_edits_are_applied_exactly (fc_source fc) chosen O) as (new & A2 & Ed).
  { apply Forall_forall. intros s Hs. destruct (From s Hs) as (p & Hp & <-). auto. }
  rewrite A in A2. injection A2 as <-.
  destruct (within_text (fc_tree fc) e (elements_within _ _ He)) as (a & b & Et & La).
  rewrite (proj2 (PropParser.C02_parse_lossless dbg _ _ _ HP)) in Et.
  destruct (PropKeep.edited_around chosen 0 a (el_text e) b (fc_source fc')) as (e1 & e2 & a' & b' & _ & En & _ & _); [rewrite <- Et; exact Ed| |].
  - apply Forall_forall. intros s Hs. destruct (From s Hs) as ([n s'] & Hp & Q). cbn [snd] in Q. subst s'.
    assert (Hn : exists rl, In rl (fc_rules fc) /\ rl_name rl = n).
    { pose proof Hp as Ha. apply in_flat_map in Ha as (r & Hr & Ha). apply in_map_iff in Ha as (s' & [= En _] & _). subst n.
      destruct (proj1 (C52_reports_name_their_rule cf (fc_rules fc) (fc_tree fc) rs HI HR) r Hr) as (rl & Hl & En). eauto. }
    destruct Hn as (rl & Hl & <-).
    assert (L : leaves_alone s e) by (eapply (C78_ignored_elements_are_left_alone_partial dbg); eauto).
    unfold leaves_alone in L. rewrite el_end_text in L. lia.
  - exists a, b, a', b'. auto.
Qed.

(** * Where it fails, and a case *)
Fixpoint neighbours (l : list elem) : list (elem * elem) :=
  match l with d :: ((e :: _) as r) => (d, e) :: neighbours r | _ => [] end.
Definition covers (rule : text) (d : elem) : bool :=
  match el_tree d with
  | Node LUDTWIG_DIRECTIVE_IGNORE _ =>
      match el_text d with [] => false | _ => true end && match tree_rules (el_tree d) with [] => true | l => mem_text rule l end
  | _ => false
  end.
Definition ignored_pairs (rule : text) (t : tree) : list (elem * elem) :=
  filter (fun de => covers rule (fst de) && is_node (el_tree (snd de))) (flat_map (fun p => neighbours (children_with_tokens p)) (elements t)).
Lemma neighbours_in : forall l d e, In (d, e) (neighbours l) -> exists l1 l2, l = l1 ++ d :: e :: l2.
Proof.
  induction l as [|x [|y l] IH]; intros d e H; [destruct H|destruct H|]. destruct H as [H|H]; [injection H as -> ->; now exists [], l|].
  destruct (IH d e H) as (l1 & l2 & ->). now exists (x :: l1), l2.
Qed.
Lemma covers_ignore rule d e p l r : covers rule d = true -> children_with_tokens p = l ++ d :: e :: r -> ignore_before rule d e.
Proof.
  unfold covers, ignore_before, a_node. intros H E. split; [eauto|]. destruct (el_tree d) as [|k cs]; [discriminate H|]. destruct k; try discriminate H. split; [eauto|].
  apply andb_true_iff in H as [H1 H2]. split; [intros Q; rewrite Q in H1; discriminate H1|]. destruct (tree_rules _) as [|x xs]; [now left|]. right. now apply mem_text_in.
Qed.
Lemma ignored_pairs_sound rule t d e : In (d, e) (ignored_pairs rule t) -> In e (elements t) /\ is_node (el_tree e) = true /\ ignore_before rule d e.
Proof.
  intros H. apply filter_In in H as [H1 H2]. cbn [fst snd] in H2. apply andb_true_iff in H2 as [H2 H3].
  apply in_flat_map in H1 as (p & Hp & H1). apply neighbours_in in H1 as (l & r & E). split; [|split; [exact H3|exact (covers_ignore _ _ _ _ _ _ H2 E)]].
  apply (element_child t p e Hp). rewrite E. apply in_or_app. right. right. now left.
Qed.
(** [rl] has an edit in an element of [src] that it should ignore. *)
Definition touched (rl : rule) (src : text) : bool :=
  match parse_file true src with
  | Done (t, []) =>
    match run_rules DefaultConfig.default_config [rl] t with
    | Done rs => existsb (fun de => existsb (fun p => Nat.ltb (el_start (snd de)) (sg_end (snd p)) && Nat.ltb (sg_start (snd p)) (el_end (snd de))) (rule_suggestions rs)) (ignored_pairs (rl_name rl) t)
    | Crashed => false
    end
  | _ => false
  end.
Definition left_alone_by (rl : rule) : Prop := forall src t results d e s,
  parse_file true src = Done (t, []) -> run_rules DefaultConfig.default_config [rl] t = Done results ->
  In e (elements t) -> is_node (el_tree e) = true -> ignore_before (rl_name rl) d e ->
  In s (map snd (rule_suggestions results)) -> leaves_alone s e.
Lemma touched_refutes rl src : touched rl src = true -> ~ left_alone_by rl.
Proof.
  unfold touched. intros H L. destruct (parse_file true src) as [[t [|er errs]]|] eqn:P; try discriminate H.
  destruct (run_rules DefaultConfig.default_config [rl] t) as [rs|] eqn:R; [|discriminate H].
  apply existsb_exists in H as ([d e] & H1 & H2). apply existsb_exists in H2 as (p & Hp & H2). cbn [snd] in H2.
  apply andb_true_iff in H2 as [H2 H3]. apply Nat.ltb_lt in H2, H3. apply ignored_pairs_sound in H1 as (I1 & I2 & I3).
  destruct (L src t rs d e (snd p) P R I1 I2 I3 (in_map snd _ _ Hp)); lia.
Qed.
Definition comment_template : text :=
  txt "{# ludtwig-ignore #}"%string ++ [10%N] ++ txt "{# c #}"%string ++ [10%N] ++ txt "{% block a %}{% endblock %}"%string.
(** C78 in full, refuted for twig-block-line-breaks: the rule edits the line break before the ignored comment ... *)
Theorem C78_ignored_comments_are_left_alone_refuted : ~ left_alone_by rule_block_line_breaks.
Proof. apply (touched_refutes _ comment_template). vm_compute. reflexivity. Qed.
(** ... and for the indentation rule: the directive in the ignored element ends the outer one. *)
Theorem C78_nested_directives_are_left_alone_refuted : ~ left_alone_by rule_indentation.
Proof. apply (touched_refutes _ nested_template). vm_compute. reflexivity. Qed.

(** The element after the directive for all rules, with three things to fix, is kept; the same one behind it is changed. *)
Definition grouped_b (l : list (text * suggestion)) : bool :=
  let o a b := Nat.ltb (sg_start (snd a)) (sg_end (snd b)) && Nat.ltb (sg_start (snd b)) (sg_end (snd a)) in
  forallb (fun a => forallb (fun b => forallb (fun c => negb (o a b && o b c) || o a c) l) l) l.
Lemma grouped_b_sound l : grouped_b l = true -> grouped l.
Proof.
  unfold grouped_b, grouped, overlap. intros H a b c Ha Hb Hc O1 O2. rewrite forallb_forall in H. specialize (H a Ha). rewrite forallb_forall in H. specialize (H b Hb).
  rewrite forallb_forall in H. specialize (H c Hc). cbn beta zeta in H. destruct O1 as [O1 O2'], O2 as [O3 O4]. apply Nat.ltb_lt in O1, O2', O3, O4.
  rewrite O1, O2', O3, O4 in H. cbn [andb negb orb] in H. apply andb_true_iff in H as [H1 H2]. now apply Nat.ltb_lt in H1, H2.
Qed.
Definition ignored_element : text := [10%N] ++ txt "<div a='x'>"%string ++ [10%N] ++ txt "{{ b && c }}</div>"%string.
Definition C78_source : text := txt "{# ludtwig-ignore #}"%string ++ ignored_element ++ ignored_element.
Definition C78_fixed : text := txt "{# ludtwig-ignore #}"%string ++ ignored_element ++ [10%N] ++ txt "<div a=""x"">"%string ++ [10%N] ++ txt "    {{ b and c }}</div>"%string.
Definition is_directive (e : elem) : bool := is_node (el_tree e) && kind_eqb (el_kind e) LUDTWIG_DIRECTIVE_IGNORE.
Definition C78_holds (src fixed inner : text) : bool :=
  match parse_file true src with
  | Done (t, []) =>
    match run_rules DefaultConfig.default_config RULE_DEFINITIONS t with
    | Done rs =>
      negb (Nat.eqb (List.length (rule_suggestions rs)) 0) && grouped_b (rule_suggestions rs) &&
      match insertion_sort (rule_suggestions rs) with
      | Done sorted =>
        match select_suggestions sorted with
        | inr chosen => match apply_suggestions chosen src with Done new => text_eqb new fixed | Crashed => false end
        | inl _ => false
        end
      | Crashed => false
      end
    | Crashed => false
    end &&
    match parse_file true fixed with
    | Done (t', _) => match run_rules DefaultConfig.default_config RULE_DEFINITIONS t' with Done _ => true | Crashed => false end
    | Crashed => false
    end &&
    match ignored_pairs [] t with
    | (d, e) :: _ =>
        text_eqb (el_text e) inner && match tree_rules (el_tree d) with [] => true | _ => false end &&
        negb (existsb is_directive (preorder_elem e)) && negb (existsb (kind_eqb (el_kind e)) [TWIG_COMMENT; HTML_COMMENT; LUDTWIG_DIRECTIVE_FILE_IGNORE; LUDTWIG_DIRECTIVE_IGNORE])
    | [] => false
    end
  | _ => false
  end.
Example C78_case : exists fc rs fc' rs' d e,
  consistent true DefaultConfig.default_config fc rs /\ round true insertion_sort DefaultConfig.default_config fc rs fc' rs' /\ grouped (rule_suggestions rs) /\
  fc_rules fc = RULE_DEFINITIONS /\ In e (elements (fc_tree fc)) /\ is_node (el_tree e) = true /\
  (forall rl, In rl (fc_rules fc) -> ignore_before (rl_name rl) d e) /\ no_directive_inside e /\ ~ comment_of_block e /\
  el_text e = ignored_element /\ fc_source fc = C78_source /\ fc_source fc' = C78_fixed.
Proof.
  assert (E : C78_holds C78_source C78_fixed ignored_element = true) by (vm_compute; reflexivity).
  unfold C78_holds in E. generalize dependent C78_source. generalize dependent C78_fixed. generalize dependent ignored_element. intros inner fixed src E.
  destruct (parse_file true src) as [[t [|er errs]]|] eqn:P; try discriminate E.
  apply andb_true_iff in E as [E E3]. apply andb_true_iff in E as [E E2].
  destruct (run_rules _ _ t) as [rs|] eqn:R; [|discriminate E]. apply andb_true_iff in E as [E E1]. apply andb_true_iff in E as [E0 G].
  destruct (insertion_sort _) as [sorted|] eqn:S; [|discriminate E1]. destruct (select_suggestions sorted) as [|chosen] eqn:Sel; [discriminate E1|].
  destruct (apply_suggestions chosen src) as [new|] eqn:A; [|discriminate E1]. apply text_eqb_eq in E1. subst new.
  destruct (parse_file true fixed) as [[t' errs']|] eqn:P'; [|discriminate E2]. destruct (run_rules _ _ t') as [rs'|] eqn:R'; [|discriminate E2].
  destruct (ignored_pairs [] t) as [|[d e] l] eqn:IP; [discriminate E3|].
  apply andb_true_iff in E3 as [E3 E7]. apply andb_true_iff in E3 as [E3 E6]. apply andb_true_iff in E3 as [E4 E5].
  destruct (ignored_pairs_sound [] t d e) as (He & Ne & B); [rewrite IP; now left|].
  exists (mkFile src t [] RULE_DEFINITIONS), rs, (mkFile fixed t' errs' RULE_DEFINITIONS), rs', d, e. unfold consistent, round. cbn [fc_source fc_tree fc_errors fc_rules].
  split; [split; assumption|]. split.
  { split; [intros Q; rewrite Q in E0; discriminate E0|]. split; [reflexivity|]. split; [split; assumption|]. exists sorted, chosen. auto. }
  split; [now apply grouped_b_sound|]. split; [reflexivity|]. split; [exact He|]. split; [exact Ne|]. split.
  { intros rl _. destruct B as (B1 & B2 & B3 & _). split; [exact B1|]. split; [exact B2|]. split; [exact B3|]. left. destruct (tree_rules (el_tree d)); [reflexivity|discriminate E5]. }
  split.
  { intros y Hy (cs & K). apply negb_true_iff in E6. assert (X : existsb is_directive (preorder_elem e) = true).
    { apply existsb_exists. exists y. split; [exact Hy|]. unfold is_directive, el_kind. rewrite K. reflexivity. }
    rewrite E6 in X. discriminate X. }
  split.
  { intros [[K|[K|[K|K]]] _]; rewrite K in E7; discriminate E7. }
  split; [now apply text_eqb_eq|]. split; reflexivity.
Qed.

Print Assumptions C78_ignored_elements_are_left_alone_partial.
Print Assumptions C78_ignored_elements_keep_their_text_partial.
Print Assumptions C78_ignored_comments_are_left_alone_refuted.
Print Assumptions C78_nested_directives_are_left_alone_refuted.
