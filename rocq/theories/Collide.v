(** Where the suggestions of one rule are, for the collisions of C23. *)
From Coq Require Import NArith String Bool Arith Lia Permutation List.
Import ListNotations.
From Verif Require Import Text Kind Regex Lexer LexerProofs ParserApi Machine TreeSpec.
From Verif Require PropFits Schema PropShape PropSkel PropLexer PropParser PropLines PropIndent PropFound3 PropEndings PropKeep Settled.
From Verif Require Import Red Typed Rule Naming Rules Check Process RedFacts WalkSpec PropProcess PropRun PropTree PropOff Found FoundRun PropFound PropFound5 PropFound6.
Local Notation length := List.length (only parsing).
Local Open Scope list_scope.

(** * Elements of a tree are apart or nested *)
Lemma elements_nested t x y : In x (elements t) -> In y (elements t) ->
  el_end x <= el_start y \/ el_end y <= el_start x \/ In x (preorder_elem y) \/ In y (preorder_elem x).
Proof.
  assert (G : forall r x y, In x (preorder_elem r) -> In y (preorder_elem r) ->
    el_end x <= el_start y \/ el_end y <= el_start x \/ In x (preorder_elem y) \/ In y (preorder_elem x)).
  { apply (elem_induction (fun r => forall x y, In x (preorder_elem r) -> In y (preorder_elem r) ->
      el_end x <= el_start y \/ el_end y <= el_start x \/ In x (preorder_elem y) \/ In y (preorder_elem x))).
    intros r IH a b Ha Hb. pose proof Ha as Ha'. pose proof Hb as Hb'. rewrite preorder_elem_unfold in Ha, Hb.
    destruct Ha as [<-|Ha]; [auto|]. destruct Hb as [<-|Hb]; [auto|].
    apply in_flat_map in Ha as (u & Hu & Ha). apply in_flat_map in Hb as (v & Hv & Hb).
    destruct (PropKeep.siblings_apart r u v Hu Hv) as [<-|[A|A]]; [apply (IH u Hu); assumption| |];
      apply PropKeep.below_inside in Ha, Hb; [left|right; left]; lia. }
  apply (G (root_elem t)).
Qed.
Lemma leaf_alone x y : is_node (el_tree x) = false -> In y (preorder_elem x) -> y = x.
Proof.
  intros N H. rewrite preorder_elem_unfold in H. destruct H as [<-|H]; [reflexivity|]. exfalso.
  unfold children_with_tokens in H. destruct (el_tree x); [destruct H|discriminate N].
Qed.

(** * Edits of single tokens and edits between tokens *)
Definition boundary (t : tree) (p : nat) : Prop := exists y, In y (elements t) /\ (p = el_start y \/ p = el_end y).
Definition whole_token (t : tree) (x : elem) (s : suggestion) : Prop :=
  In x (elements t) /\ is_node (el_tree x) = false /\ sg_start s = el_start x /\ sg_end s = el_end x.
Definition between_tokens (t : tree) (s : suggestion) : Prop := sg_start s = sg_end s /\ boundary t (sg_start s).

Lemma between_apart t x s s' : whole_token t x s -> between_tokens t s' -> ~ overlap s s'.
Proof.
  intros (Hx & Nx & S & E) (S' & y & Hy & B) [O1 O2].
  destruct (elements_nested t x y Hx Hy) as [A|[A|[A|A]]].
  - pose proof (PropFits.start_end y). destruct B; lia.
  - pose proof (PropFits.start_end y). destruct B; lia.
  - apply PropKeep.below_inside in A. destruct B; lia.
  - rewrite (leaf_alone x y Nx A) in B. destruct B; lia.
Qed.
Lemma between_both t s s' : between_tokens t s -> between_tokens t s' -> ~ overlap s s'.
Proof. intros (S & _) (S' & _) [O1 O2]. lia. Qed.
Lemma whole_apart t x y s s' : whole_token t x s -> whole_token t y s' -> overlap s s' -> x = y.
Proof.
  intros (Hx & Nx & S & E) (Hy & Ny & S' & E') [O1 O2].
  destruct (PropIndent.tokens_apart t x y Hx Hy Nx Ny) as [->|[A|A]]; [reflexivity| |]; lia.
Qed.

Fixpoint up (k : nat) (x : elem) : option elem :=
  match k with 0 => Some x | S k => match parent x with Some p => up k p | None => None end end.

(** The suggestions of one element: whole tokens [k] steps below it, or insertions at the edges of
    elements there. *)
Definition inserted (t : tree) (x : elem) (s : suggestion) : Prop :=
  In x (elements t) /\ sg_start s = sg_end s /\ (sg_start s = el_start x \/ sg_start s = el_end x).
Definition tidy_edits (t : tree) (k : nat) (e : elem) (l : list suggestion) : Prop :=
  pairwise (fun a b => ~ overlap a b) l /\
  Forall (fun s => exists x, up k x = Some e /\ (whole_token t x s \/ inserted t x s)) l.
Lemma inserted_between t x s : inserted t x s -> between_tokens t s.
Proof. intros (H & S & B). split; [exact S|]. exists x. auto. Qed.
Lemma tidy_nil t k e : tidy_edits t k e [].
Proof. split; [exact I|constructor]. Qed.
Lemma tidy_apart t k e e' l l' a b : tidy_edits t k e l -> tidy_edits t k e' l' -> e <> e' -> In a l -> In b l' -> ~ overlap a b.
Proof.
  intros [_ F] [_ F'] N Ha Hb O. rewrite Forall_forall in F, F'. apply F in Ha. apply F' in Hb.
  destruct Ha as (x & Ux & [Wx|Ba]), Hb as (y & Uy & [Wy|Bb]); try (apply inserted_between in Ba); try (apply inserted_between in Bb).
  - rewrite (whole_apart t x y a b Wx Wy O) in Ux. congruence.
  - exact (between_apart _ _ _ _ Wx Bb O).
  - exact (between_apart _ _ _ _ Wy Ba (overlap_sym _ _ O)).
  - exact (between_both _ _ _ Ba Bb O).
Qed.
Lemma tidy_one t k e x s : whole_token t x s -> up k x = Some e -> tidy_edits t k e [s].
Proof. intros W U. split; [split; constructor|]. constructor; [exists x; auto|constructor]. Qed.

(** * The suggestions of one rule in a run *)
Definition suggestions_of (rl : rule) (ctx : context) (e : elem) : list suggestion :=
  flat_map rs_suggestions ((if is_node (el_tree e) then rl_node rl else rl_token rl) ctx e).
Lemma flat_map_flat {A B C} (f : A -> list B) (g : B -> list C) l : flat_map g (flat_map f l) = flat_map (fun x => flat_map g (f x)) l.
Proof. induction l as [|x l IH]; [reflexivity|]. cbn [flat_map]. now rewrite flat_map_app, IH. Qed.
Lemma pairwise_nodup {A} (R : A -> A -> Prop) l : NoDup l -> (forall x y, In x l -> In y l -> x <> y -> R x y) -> pairwise R l.
Proof.
  induction 1 as [|x l N _ IH]; intros H; [exact I|]. split.
  - apply Forall_forall. intros y Hy. apply H; [now left|now right|]. intros ->. contradiction.
  - apply IH. intros a b Ha Hb. apply H; now right.
Qed.
Lemma elementwise (R : suggestion -> suggestion -> Prop) cf rules t results rl :
  incl rules RULE_DEFINITIONS -> NoDup (map rl_name rules) -> run_rules cf rules t = Done results -> In rl rules ->
  (forall roots, rl_root rl (mkCtx cf false) (root_elem t) = Done roots -> flat_map rs_suggestions roots = []) ->
  (forall ctx e, cx_config ctx = cf -> In e (elements t) -> pairwise R (suggestions_of rl ctx e)) ->
  (forall ctx ctx' e e' a b, cx_config ctx = cf -> cx_config ctx' = cf -> In e (elements t) -> In e' (elements t) -> e <> e' ->
     In a (suggestions_of rl ctx e) -> In b (suggestions_of rl ctx' e') -> R a b) ->
  pairwise R (flat_map rs_suggestions (of_rule (rl_name rl) results)).
Proof.
  intros HI HN HR Hin Hroot H1 H2. destruct (of_run cf rules t results HI HN HR rl Hin) as (roots & fl & Er & ->).
  rewrite flat_map_app, (Hroot roots Er). cbn [app]. rewrite flat_map_flat.
  apply PropEndings.pairwise_flat.
  - intros e He. apply filter_In in He as [He _]. destruct (switched_off _ _); [exact I|]. now apply (H1 (mkCtx cf (fl e))).
  - apply pairwise_nodup; [apply NoDup_filter, elements_nodup|]. intros x y Hx Hy N a b Ha Hb.
    apply filter_In in Hx as [Hx _]. apply filter_In in Hy as [Hy _].
    destruct (switched_off (rl_name rl) x); [destruct Ha|]. destruct (switched_off (rl_name rl) y); [destruct Hb|].
    now apply (H2 (mkCtx cf (fl x)) (mkCtx cf (fl y)) x y).
Qed.
Lemma tidy_rule k cf rules t results rl :
  incl rules RULE_DEFINITIONS -> NoDup (map rl_name rules) -> run_rules cf rules t = Done results -> In rl rules ->
  (forall roots, rl_root rl (mkCtx cf false) (root_elem t) = Done roots -> flat_map rs_suggestions roots = []) ->
  (forall ctx e, cx_config ctx = cf -> In e (elements t) -> tidy_edits t k e (suggestions_of rl ctx e)) ->
  pairwise (fun a b => ~ overlap a b) (flat_map rs_suggestions (of_rule (rl_name rl) results)).
Proof.
  intros HI HN HR Hin Hroot H. apply (elementwise _ cf rules t); auto.
  - intros ctx e Hc He. apply (H ctx e Hc He).
  - intros ctx ctx' e e' a b Hc Hc' He He' N Ha Hb. apply (tidy_apart t k e e' _ _ a b (H ctx e Hc He) (H ctx' e' Hc' He') N Ha Hb).
Qed.

(** * The rules one by one *)
Lemma token_child t e x : In e (elements t) -> In x (children_with_tokens e) -> is_node (el_tree x) = false ->
  forall s, sg_start s = el_start x -> sg_end s = el_end x -> whole_token t x s /\ up 1 x = Some e.
Proof.
  intros He Hx Nx s S E. split.
  - split; [|auto]. apply within_elements. eapply within_children; [apply elements_within; exact He|exact Hx].
  - cbn [up]. now rewrite (PropFound3.child_parent e x Hx).
Qed.
Lemma support_token_child k e x : support_token k e = Some x -> In x (children_with_tokens e) /\ is_node (el_tree x) = false /\ el_kind x = k.
Proof.
  unfold support_token, child_tokens. intros H. apply find_some in H as [H K]. apply filter_In in H as [H N].
  apply negb_true_iff in N. apply kind_eqb_eq in K. auto.
Qed.
Lemma support_child_child k e x : support_child k e = Some x -> In x (children_with_tokens e).
Proof. unfold support_child, child_nodes. intros H. apply find_some in H as [H _]. now apply filter_In in H. Qed.
Lemma element_child t e x : In e (elements t) -> In x (children_with_tokens e) -> In x (elements t).
Proof. intros He Hx. apply within_elements. eapply within_children; [apply elements_within; exact He|exact Hx]. Qed.
Lemma cast_is k e x : cast k e = Some x -> x = e.
Proof. apply cast_same. Qed.

Lemma node_rule_tidy t k cf name f :
  (forall ctx e r, cx_config ctx = cf -> In e (elements t) -> f ctx e = Some r -> tidy_edits t k e (rs_suggestions r)) ->
  forall ctx e, cx_config ctx = cf -> In e (elements t) -> tidy_edits t k e (suggestions_of (node_rule name f) ctx e).
Proof.
  intros H ctx e Hc He. unfold suggestions_of, node_rule. cbn [rl_node rl_token]. destruct (is_node (el_tree e)); [|apply tidy_nil].
  destruct (f ctx e) as [r|] eqn:F; [|apply tidy_nil]. cbn [flat_map]. rewrite app_nil_r. eauto.
Qed.
Ltac step H := match type of H with
  | obind ?a _ = Some _ => let E := fresh "E" in let x := fresh "x" in destruct a as [x|] eqn:E; cbn [obind] in H; [|discriminate H]
  | (if ?b then _ else _) = Some _ => let B := fresh "B" in destruct b eqn:B
  end.

Lemma block_names_tidy t cf : forall ctx e, cx_config ctx = cf -> In e (elements t) -> tidy_edits t 1 e (suggestions_of rule_block_name_snake_case ctx e).
Proof.
  apply node_rule_tidy. intros ctx e r _ He H. step H. apply cast_is in E as ->. step H. step H; [|discriminate H].
  apply support_token_child in E as (E & N & _).
  injection H as <-.
  destruct (try_make_snake_case _ _) as [a|]; [|apply tidy_nil].
  destruct (token_child t e x He E N (mkSug (el_start x) (el_end x) a (txt "Try this name instead"%string)) eq_refl eq_refl) as [W U].
  exact (tidy_one t 1 e x _ W U).
Qed.
Lemma attribute_names_tidy t cf : forall ctx e, cx_config ctx = cf -> In e (elements t) -> tidy_edits t 1 e (suggestions_of rule_attribute_name_kebab_case ctx e).
Proof.
  apply node_rule_tidy. intros ctx e r _ He H. step H. apply cast_is in E as ->. step H. step H. step H; [discriminate H|]. step H; [|discriminate H].
  apply support_token_child in E as (E & N & _). injection H as <-.
  destruct (try_make_kebab_case _) as [a|]; [|apply tidy_nil].
  destruct (token_child t e x He E N (mkSug (el_start x) (el_end x) a (txt "Try this name instead"%string)) eq_refl eq_refl) as [W U].
  exact (tidy_one t 1 e x _ W U).
Qed.
Lemma operator_child e o : binary_operator e = Some o -> In o (children_with_tokens e) /\ is_node (el_tree o) = false.
Proof.
  unfold binary_operator, child_tokens. intros H. apply find_some in H as [H _]. apply filter_In in H as [H N]. apply negb_true_iff in N. auto.
Qed.
Lemma logic_tidy t cf name op sh new : forall ctx e, cx_config ctx = cf -> In e (elements t) -> tidy_edits t 1 e (suggestions_of (rule_logic name op sh new) ctx e).
Proof.
  apply node_rule_tidy. intros ctx e r _ He H. step H. apply cast_is in E as ->. step H. step H; [|discriminate H].
  apply operator_child in E as (E & N). injection H as <-.
  destruct (token_child t e x He E N (mkSug (el_start x) (el_end x) new (txt "Try this operator instead"%string)) eq_refl eq_refl) as [W U].
  exact (tidy_one t 1 e x _ W U).
Qed.
Lemma extends_tidy t cf : forall ctx e, cx_config ctx = cf -> In e (elements t) -> tidy_edits t 1 e (suggestions_of rule_prefer_shopware_extends ctx e).
Proof.
  apply node_rule_tidy. intros ctx e r _ He H. step H. apply cast_is in E as ->. step H.
  apply support_token_child in E as (E & N & _). injection H as <-.
  destruct (token_child t e x He E N (mkSug (el_start x) (el_end x) (txt "sw_extends"%string) (txt "Try this keyword instead"%string)) eq_refl eq_refl) as [W U].
  exact (tidy_one t 1 e x _ W U).
Qed.
Lemma json_tidy t cf : forall ctx e, cx_config ctx = cf -> In e (elements t) -> tidy_edits t 3 e (suggestions_of rule_json_encode_escape_js ctx e).
Proof.
  apply node_rule_tidy. intros ctx e r _ He H. step H. apply cast_is in E as ->. step H. step H. step H; [discriminate H|]. step H; [discriminate H|].
  rename x into o. rename x0 into n. injection H as <-.
  assert (Ho : In o (children_with_tokens e)).
  { unfold filter_filter in E. apply nth_error_In in E. unfold support_children, child_nodes in E. apply filter_In in E as [E _]. now apply filter_In in E. }
  unfold operand_name in E0. step E0. rename x into l. apply support_child_child in E1. apply support_token_child in E0 as (E0 & N & _).
  destruct (token_child t l n (element_child t o l (element_child t e o He Ho) E1) E0 N
    (mkSug (el_start n) (el_end n) (txt "escape('js')"%string) (txt "Try this filter instead"%string)) eq_refl eq_refl) as [W U].
  apply (tidy_one t 3 e n _ W). cbn [up] in *. rewrite (PropFound3.child_parent _ _ E0), (PropFound3.child_parent _ _ E1), (PropFound3.child_parent _ _ Ho). reflexivity.
Qed.

(** Quotes *)
Lemma take_in {A} (f : A -> bool) x : forall l, In x (take_while f l) -> In x l.
Proof. induction l as [|y l IH]; [auto|]. cbn [take_while In]. destruct (f y); cbn [In]; [|tauto]. intros [H|H]; auto. Qed.
Lemma skip_in {A} (f : A -> bool) x : forall l, In x (skip_while f l) -> In x l.
Proof. induction l as [|y l IH]; [auto|]. cbn [skip_while In]. destruct (f y); [auto|]. cbn [In]. auto. Qed.
Lemma take_skip {A} (f : A -> bool) : forall l, l = take_while f l ++ skip_while f l.
Proof. induction l as [|y l IH]; [reflexivity|]. cbn [take_while skip_while]. destruct (f y); [|reflexivity]. cbn [app]. now rewrite <- IH. Qed.
Lemma quotes_differ e q q' : opening_quote e = Some q -> closing_quote e = Some q' -> q <> q'.
Proof.
  unfold opening_quote, closing_quote. intros H H' <-. apply find_some in H as [H _]. apply find_some in H' as [H' _].
  pose proof (children_nodup e) as N. rewrite (take_skip (fun c => negb (is_node (el_tree c))) (children_with_tokens e)) in N.
  apply in_split in H as (a & b & H). rewrite H in N. rewrite <- app_assoc in N. cbn [app] in N. apply NoDup_remove_2 in N. apply N.
  apply in_or_app. right. apply in_or_app. right. exact H'.
Qed.
Lemma up_parent e x y k : up k x = Some y -> parent y = Some e -> up (S k) x = Some e.
Proof.
  revert x. induction k as [|k IH]; intros x H P; [injection H as ->; cbn [up]; now rewrite P|]. cbn [up] in H |- *. destruct (parent x) as [p|]; [|discriminate H].
  apply IH; assumption.
Qed.
Lemma quotes_tidy t k e str inner s1 s2 : In str (elements t) -> In inner (elements t) -> parent inner = Some str -> up k str = Some e ->
  match opening_quote str with Some q => sg_start s1 = el_start q /\ sg_end s1 = el_end q | None => sg_start s1 = el_start inner /\ sg_end s1 = el_start inner end ->
  match closing_quote str with Some q => sg_start s2 = el_start q /\ sg_end s2 = el_end q | None => sg_start s2 = el_end inner /\ sg_end s2 = el_end inner end ->
  tidy_edits t (S k) e [s1; s2].
Proof.
  intros Hs Hi Pi U H1 H2. assert (Ui : up (S k) inner = Some e) by (cbn [up]; rewrite Pi; exact U).
  assert (Q : forall q s, In q (children_with_tokens str) -> is_plain_token q = true -> sg_start s = el_start q -> sg_end s = el_end q ->
    whole_token t q s /\ up (S k) q = Some e).
  { intros q s Hq Nq S E. unfold is_plain_token in Nq. apply andb_true_iff in Nq as [Nq _]. apply negb_true_iff in Nq.
    destruct (token_child t str q Hs Hq Nq s S E) as [W _]. split; [exact W|]. cbn [up]. now rewrite (PropFound3.child_parent _ _ Hq). }
  pose proof (fun q q' => quotes_differ str q q') as D.
  assert (C1 : (exists x, opening_quote str = Some x /\ whole_token t x s1 /\ up (S k) x = Some e) \/ inserted t inner s1).
  { destruct (opening_quote str) as [q|] eqn:Eq.
    - unfold opening_quote in Eq. apply find_some in Eq as [I N]. apply take_in in I. destruct H1. left. exists q. split; [reflexivity|]. now apply Q.
    - right. destruct H1 as [S E]. split; [exact Hi|]. split; [congruence|]. auto. }
  assert (C2 : (exists x, closing_quote str = Some x /\ whole_token t x s2 /\ up (S k) x = Some e) \/ inserted t inner s2).
  { destruct (closing_quote str) as [q|] eqn:Eq.
    - unfold closing_quote in Eq. apply find_some in Eq as [I N]. apply skip_in in I. destruct H2. left. exists q. split; [reflexivity|]. now apply Q.
    - right. destruct H2 as [S E]. split; [exact Hi|]. split; [congruence|]. auto. }
  split.
  - split; [|split; [constructor|exact I]]. constructor; [|constructor]. intros O.
    destruct C1 as [(x & Ex & Wx & _)|B1], C2 as [(y & Ey & Wy & _)|B2]; try (apply inserted_between in B1); try (apply inserted_between in B2).
    + apply (D x y Ex Ey). exact (whole_apart _ _ _ _ _ Wx Wy O).
    + exact (between_apart _ _ _ _ Wx B2 O).
    + exact (between_apart _ _ _ _ Wy B1 (overlap_sym _ _ O)).
    + exact (between_both _ _ _ B1 B2 O).
  - constructor; [|constructor; [|constructor]].
    + destruct C1 as [(x & _ & C1 & C1')|C1]; [exists x|exists inner]; auto.
    + destruct C2 as [(x & _ & C2 & C2')|C2]; [exists x|exists inner]; auto.
Qed.
Lemma change_quotes_tidy t str inner quote r : In str (elements t) -> (forall i, inner = Some i -> In i (elements t) /\ parent i = Some str) -> rs_suggestions r = [] ->
  tidy_edits t 1 str (rs_suggestions (change_quotes str inner quote r)).
Proof.
  intros Hs Hi Hr. unfold change_quotes. destruct inner as [i|]; [|rewrite Hr; apply tidy_nil]. destruct (contains_char _ _); [rewrite Hr; apply tidy_nil|].
  cbn zeta. destruct (Hi i eq_refl) as [Hi1 Hi2].
  pose proof (fun s1 s2 => quotes_tidy t 0 str str i s1 s2 Hs Hi1 Hi2 eq_refl) as T.
  destruct (opening_quote str) as [q|], (closing_quote str) as [q'|]; cbn [add_suggestion rs_suggestions]; rewrite Hr; cbn [app]; apply T; cbn [sg_start sg_end]; auto.
Qed.
Lemma inner_element t k e i : In e (elements t) -> support_child k e = Some i -> In i (elements t) /\ parent i = Some e.
Proof. intros He H. apply support_child_child in H. split; [exact (element_child t e i He H)|now apply PropFound3.child_parent]. Qed.
Lemma check_quotes_tidy t name q str inner r : In str (elements t) -> (forall i, inner = Some i -> In i (elements t) /\ parent i = Some str) ->
  check_quotes name q str inner = Some r -> tidy_edits t 1 str (rs_suggestions r).
Proof.
  intros Hs Hi H. unfold check_quotes in H. destruct (negb _ || negb _); [|discriminate H]. cbn [range_trimmed_trivia] in H.
  unfold range_trimmed_trivia in H. injection H as <-. apply change_quotes_tidy; auto.
Qed.
Lemma twig_quotes_tidy t cf : forall ctx e, cx_config ctx = cf -> In e (elements t) -> tidy_edits t 1 e (suggestions_of rule_twig_string_quotation ctx e).
Proof.
  apply node_rule_tidy. intros ctx e r _ He H. step H. apply cast_is in E as ->. cbn zeta in H. destruct (_ && _) in H; [discriminate H|].
  apply (check_quotes_tidy t) in H; auto. intros i Hi. exact (inner_element _ _ _ _ He Hi).
Qed.
Lemma html_quotes_tidy t cf : forall ctx e, cx_config ctx = cf -> In e (elements t) -> tidy_edits t 1 e (suggestions_of rule_html_string_quotation ctx e).
Proof.
  apply node_rule_tidy. intros ctx e r _ He H. step H. apply cast_is in E as ->.
  apply (check_quotes_tidy t) in H; auto. intros i Hi. exact (inner_element _ _ _ _ He Hi).
Qed.
Lemma hash_keys_tidy t cf : forall ctx e, cx_config ctx = cf -> In e (elements t) -> tidy_edits t 2 e (suggestions_of rule_hash_key_no_quotes ctx e).
Proof.
  apply node_rule_tidy. intros ctx e r _ He H. step H. apply cast_is in E as ->. step H. step H. step H; [|discriminate H].
  rename x into str. rename x0 into i. assert (Hs : In str (elements t)) by exact (proj1 (inner_element _ _ _ _ He E)).
  destruct (inner_element _ _ _ _ Hs E0) as [Hi Pi].
  assert (U : up 1 str = Some e) by (cbn [up]; now rewrite (PropFound3.child_parent _ _ (support_child_child _ _ _ E))).
  unfold range_trimmed_trivia in H. cbn zeta in H. injection H as <-.
  pose proof (fun s1 s2 => quotes_tidy t 1 e str i s1 s2 Hs Hi Pi U) as T.
  destruct (opening_quote str) as [q|], (closing_quote str) as [q'|]; apply T; cbn [sg_start sg_end]; auto.
Qed.

(** Rules that suggest nothing *)
Definition quiet (r : result) : Prop := rs_suggestions r = [].
Lemma quiet_flat l : Forall quiet l -> flat_map rs_suggestions l = [].
Proof. induction 1 as [|r l H _ IH]; [reflexivity|]. cbn [flat_map]. now rewrite H, IH. Qed.
Lemma quiet_node_rule t name f : (forall ctx e r, f ctx e = Some r -> quiet r) ->
  forall ctx e, In e (elements t) -> tidy_edits t 0 e (suggestions_of (node_rule name f) ctx e).
Proof.
  intros H ctx e He. unfold suggestions_of, node_rule. cbn [rl_node rl_token]. destruct (is_node (el_tree e)); [|apply tidy_nil].
  destruct (f ctx e) as [r|] eqn:F; [|apply tidy_nil]. cbn [flat_map]. rewrite (H ctx e r F). apply tidy_nil.
Qed.
Lemma quiet_duplicate name enter ctx root roots :
  (forall s e s' b, enter s e = Done (s', b) -> Forall quiet (dp_results s) -> Forall quiet (dp_results s')) ->
  duplicate_root name enter ctx (root_elem root) = Done roots -> flat_map rs_suggestions roots = [].
Proof.
  intros HE. unfold duplicate_root. cbn [root_elem el_tree el_off el_path].
  destruct (walk false enter (duplicate_leave name) root 0 [] _) as [s|] eqn:H; [|intros X; discriminate X]. intros E. apply PropFound6.done_inj in E. subst roots.
  apply quiet_flat. change (walk_elem false enter (duplicate_leave name) (root_elem root) (mkDup [] false []) = Done s) in H.
  revert H. apply (PropFits.walk_invariant root false enter (duplicate_leave name) (fun s => Forall quiet (dp_results s))).
  - intros s0 x s' b W P H. exact (HE _ _ _ _ H P).
  - intros s0 x s' W P [= <-]. exact P.
  - apply within_root.
  - constructor.
Qed.
Lemma block_duplicate_quiet ctx t roots : rl_root rule_block_duplicate ctx (root_elem t) = Done roots -> flat_map rs_suggestions roots = [].
Proof.
  cbn [rl_root rule_block_duplicate]. apply quiet_duplicate. intros s x s' b H P. unfold block_duplicate_enter in H.
  destruct (ignore_enter _ _ x) as [ign sk]. destruct sk; [injection H as <- <-; exact P|].
  destruct ign; injection H as <- <-; [exact P|]. unfold block_duplicate_visit.
  destruct (let? b := cast TWIG_BLOCK x in _) as [[a n]|]; [|exact P].
  destruct (let? b0 := lookup _ _ in _); cbn [dp_results]; [|exact P].
  apply Forall_app. split; [exact P|]. repeat constructor.
Qed.
Lemma duplicate_id_quiet ctx t roots : rl_root rule_duplicate_id ctx (root_elem t) = Done roots -> flat_map rs_suggestions roots = [].
Proof.
  cbn [rl_root rule_duplicate_id]. apply quiet_duplicate. intros s x s' b H P. unfold duplicate_id_enter in H.
  destruct (kind_eqb (el_kind x) ERROR); [injection H as <- <-; exact P|].
  destruct (ignore_enter _ _ x) as [ign sk]. destruct sk; [injection H as <- <-; exact P|].
  destruct ign; injection H as <- <-; [exact P|]. unfold duplicate_id_visit.
  destruct (let? b := cast HTML_ATTRIBUTE x in _) as [[a n]|]; [|exact P].
  destruct (let? b0 := lookup _ _ in _); cbn [dp_results]; [|exact P].
  apply Forall_app. split; [exact P|]. repeat constructor.
Qed.
Lemma variables_quiet t ctx e : tidy_edits t 0 e (suggestions_of rule_variable_definition_naming ctx e).
Proof.
  unfold suggestions_of. cbn [rl_node rl_token rule_variable_definition_naming]. destruct (is_node (el_tree e)) eqn:N; [|apply tidy_nil]. cbv beta. rewrite N. cbn [negb].
  assert (G : forall b, flat_map rs_suggestions (check_literal_names e b) = []).
  { intros b. apply quiet_flat. apply Forall_forall. intros r Hr. apply in_flat_map in Hr. destruct Hr as (n & _ & Hr).
    destruct (literal_name n); [|destruct Hr]. apply in_app_or in Hr.
    destruct Hr as [Hr|Hr]; match type of Hr with In _ (if ?b then _ else _) => destruct b end;
      destruct Hr as [<-|[]] || destruct Hr; reflexivity. }
  destruct (el_kind e); rewrite ?G; apply tidy_nil.
Qed.

(** White space on empty lines *)
Lemma some_inj {A} (x y : A) : Some x = Some y -> x = y.
Proof. intros H. now injection H. Qed.
Lemma empty_lines_at ctx e s : is_node (el_tree e) = false -> In s (suggestions_of rule_whitespace_between_line_breaks ctx e) ->
  exists ws, next_token e = Some ws /\ suggestions_of rule_whitespace_between_line_breaks ctx e = [s] /\ sg_start s = el_start ws /\ sg_end s = el_end ws.
Proof.
  intros N. unfold suggestions_of. rewrite N. cbn [rl_token rule_whitespace_between_line_breaks].
  match goal with |- In s (flat_map _ match ?x with _ => _ end) -> _ => destruct x as [r|] eqn:E end; [|intros []].
  destruct (negb _) in E; [discriminate E|]. step E. destruct (negb _) in E; [discriminate E|]. step E. destruct (negb _) in E; [discriminate E|].
  apply some_inj in E. subst r. cbn [flat_map add_suggestion rs_suggestions primary_note create_result app].
  intros [<-|[]]. exists x. repeat split; auto.
Qed.
Lemma empty_lines_apart dbg src t errs cf rules results : parse_src dbg src = OK (t, errs) ->
  incl rules RULE_DEFINITIONS -> NoDup (map rl_name rules) -> run_rules cf rules t = Done results -> In rule_whitespace_between_line_breaks rules ->
  pairwise (fun a b => ~ overlap a b) (flat_map rs_suggestions (of_rule (rl_name rule_whitespace_between_line_breaks) results)).
Proof.
  intros HP HI HN HR Hin. apply (elementwise _ cf rules t results); auto.
  - intros roots E. apply PropFound6.done_inj in E. now subst.
  - intros ctx e _ He. destruct (is_node (el_tree e)) eqn:N; [unfold suggestions_of; rewrite N; exact I|].
    destruct (suggestions_of rule_whitespace_between_line_breaks ctx e) as [|s l] eqn:E; [exact I|].
    destruct (empty_lines_at ctx e s N) as (ws & _ & X & _); [rewrite E; now left|]. rewrite E in X. injection X as ->. split; constructor.
  - intros ctx ctx' e e' a b _ _ He He' D Ha Hb O.
    destruct (is_node (el_tree e)) eqn:N; [unfold suggestions_of in Ha; rewrite N in Ha; exact Ha|].
    destruct (is_node (el_tree e')) eqn:N'; [unfold suggestions_of in Hb; rewrite N' in Hb; exact Hb|].
    destruct (empty_lines_at ctx e a N Ha) as (w & W & _ & S & E). destruct (empty_lines_at ctx' e' b N' Hb) as (w' & W' & _ & S' & E').
    destruct (PropIndent.next_token_adjacent t e w (elements_within _ _ He) W) as [A Nw].
    destruct (PropIndent.next_token_adjacent t e' w' (elements_within _ _ He') W') as [A' Nw'].
    assert (Hw : In w (elements t)) by (apply within_elements; eapply within_next_token; [apply elements_within; exact He|exact W]).
    assert (Hw' : In w' (elements t)) by (apply within_elements; eapply within_next_token; [apply elements_within; exact He'|exact W']).
    assert (w = w') as <- by (apply (whole_apart t w w' a b); [split; auto|split; auto|exact O]).
    pose proof (token_nonempty dbg src t errs e HP He N). pose proof (token_nonempty dbg src t errs e' HP He' N').
    destruct (PropIndent.tokens_apart t e e' He He' N N') as [X|[X|X]]; [contradiction| |]; lia.
Qed.

(** Line endings *)
Lemma find_after r : forall s skip off m, In m (find_iter r skip off s) -> off + blen (firstn skip s) <= fst m /\ snd m <= off + blen s.
Proof.
  induction s as [|c s IH]; intros skip off m H; [destruct H|]. cbn [find_iter] in H. destruct skip as [|k].
  - assert (G : forall k, In m (find_iter r k (off + utf8_len c) s) -> off + blen (firstn 0 (c :: s)) <= fst m /\ snd m <= off + blen (c :: s)).
    { intros k Hm. apply IH in Hm. cbn [firstn]. change (blen (c :: s)) with (utf8_len c + blen s). change (blen []) with 0. lia. }
    destruct (rlong r (c :: s)) as [[|k]|]; [now apply G in H| |now apply G in H]. destruct H as [<-|H]; [|now apply G in H].
    cbn [fst snd]. change (blen (firstn 0 (c :: s))) with 0. split; [lia|]. rewrite <- (firstn_skipn (S k) (c :: s)) at 2. rewrite blen_app. lia.
  - apply IH in H. cbn [firstn]. change (blen (c :: s)) with (utf8_len c + blen s). change (blen (c :: firstn k s)) with (utf8_len c + blen (firstn k s)). lia.
Qed.
Lemma find_disjoint r : forall s skip off, pairwise (fun m m' : nat * nat => snd m <= fst m') (find_iter r skip off s).
Proof.
  induction s as [|c s IH]; intros skip off; [exact I|]. cbn [find_iter]. destruct skip as [|k]; [|apply IH].
  destruct (rlong r (c :: s)) as [[|k]|]; [apply IH| |apply IH]. split; [|apply IH]. apply Forall_forall. intros m H.
  apply find_after in H. cbn [snd firstn]. change (blen (c :: firstn k s)) with (utf8_len c + blen (firstn k s)). lia.
Qed.
Lemma line_endings_at ctx e s : is_node (el_tree e) = false -> In s (suggestions_of rule_line_ending ctx e) ->
  el_start e <= sg_start s /\ sg_end s <= el_end e.
Proof.
  intros N. unfold suggestions_of. rewrite N. cbn [rl_token rule_line_ending]. destruct (negb _); [intros []|]. cbn zeta.
  rewrite flat_map_concat_map, map_map, <- flat_map_concat_map. intros H. apply in_flat_map in H as (m & Hm & Hs).
  cbn [add_suggestion rs_suggestions primary_note create_result app] in Hs. destruct Hs as [<-|[]]. apply find_after in Hm.
  cbn [sg_start sg_end]. rewrite el_end_text. lia.
Qed.
Lemma line_endings_apart cf rules t results : incl rules RULE_DEFINITIONS -> NoDup (map rl_name rules) -> run_rules cf rules t = Done results -> In rule_line_ending rules ->
  pairwise (fun a b => ~ overlap a b) (flat_map rs_suggestions (of_rule (rl_name rule_line_ending) results)).
Proof.
  intros HI HN HR Hin. apply (elementwise _ cf rules t results); auto.
  - intros roots E. apply PropFound6.done_inj in E. now subst.
  - intros ctx e _ He. unfold suggestions_of. destruct (is_node (el_tree e)) eqn:N; [exact I|]. cbn [rl_token rule_line_ending]. destruct (negb _); [exact I|]. cbn zeta.
    rewrite flat_map_concat_map, map_map, <- flat_map_concat_map.
    pose proof (find_disjoint (invalid_line_ending (cf_line_ending (cx_config ctx))) (el_text e) 0 0) as D. revert D.
    generalize (find_iter (invalid_line_ending (cf_line_ending (cx_config ctx))) 0 0 (el_text e)). intros l D.
    apply PropEndings.pairwise_flat; [intros m _; split; constructor|]. revert D. apply PropIndent.pairwise_impl.
    intros m m' D a b Ha Hb. cbn [add_suggestion rs_suggestions primary_note create_result app] in Ha, Hb.
    destruct Ha as [<-|[]]. destruct Hb as [<-|[]]. intros [O1 O2]. cbn [sg_start sg_end] in *. lia.
  - intros ctx ctx' e e' a b _ _ He He' D Ha Hb [O1 O2].
    destruct (is_node (el_tree e)) eqn:N; [unfold suggestions_of in Ha; rewrite N in Ha; exact Ha|].
    destruct (is_node (el_tree e')) eqn:N'; [unfold suggestions_of in Hb; rewrite N' in Hb; exact Hb|].
    apply line_endings_at in Ha; [|exact N]. apply line_endings_at in Hb; [|exact N'].
    destruct (PropIndent.tokens_apart t e e' He He' N N') as [X|[X|X]]; [contradiction| |]; lia.
Qed.

(** Rules with an exact description *)
Lemma exactly_pairwise {A} results name (Q : A -> Prop) D (R : suggestion -> suggestion -> Prop) : exactly results name Q D ->
  (forall x r, Q x -> D x (show r) -> pairwise R (rs_suggestions r)) ->
  (forall x y r r' a b, Q x -> Q y -> x <> y -> D x (show r) -> D y (show r') -> In a (rs_suggestions r) -> In b (rs_suggestions r') -> R a b) ->
  pairwise R (flat_map rs_suggestions (of_rule name results)).
Proof.
  intros (xs & X1 & X2 & X3) H1 H2. change (filter (fun r => text_eqb (rs_rule r) name) results) with (of_rule name results) in X3.
  assert (Q' : forall x, In x xs -> Q x) by (intros x Hx; now apply X2). clear X2. induction X3 as [|r x rs xs Hr F IH]; [exact I|].
  inversion X1 as [|? ? N1 N2]; subst. cbn [flat_map]. apply PropIndent.pairwise_app.
  - apply (H1 x); [apply Q'; now left|exact Hr].
  - apply IH; [exact N2|]. intros y Hy. apply Q'. now right.
  - intros a b Ha Hb. apply in_flat_map in Hb as (r' & Hr' & Hb).
    assert (E : exists y, In y xs /\ D y (show r')).
    { clear -F Hr'. induction F as [|r0 y rs xs H _ IH]; [destruct Hr'|]. destruct Hr' as [->|Hr']; [exists y; split; [now left|exact H]|].
      destruct (IH Hr') as (z & Hz & E). exists z. split; [now right|exact E]. }
    destruct E as (y & Hy & Dy). apply (H2 x y r r'); auto; [apply Q'; now left|apply Q'; now right|]. intros ->. contradiction.
Qed.
Lemma shown_edits r l : sh_edits (show r) = l -> map (fun s => (sg_start s, sg_end s, sg_text s)) (rs_suggestions r) = l.
Proof. auto. Qed.
Lemma shown_one r s e x : sh_edits (show r) = [(s, e, x)] -> exists g, rs_suggestions r = [g] /\ sg_start g = s /\ sg_end g = e.
Proof.
  intros H. apply shown_edits in H. destruct (rs_suggestions r) as [|g [|? ?]]; try discriminate H. cbn [map] in H. injection H as <- <- _. exists g. auto.
Qed.

Lemma indentation_apart dbg src t errs cf rules results : parse_src dbg src = OK (t, errs) ->
  incl rules RULE_DEFINITIONS -> NoDup (map rl_name rules) -> run_rules cf rules t = Done results -> In rule_indentation rules ->
  pairwise (fun a b => ~ overlap a b) (flat_map rs_suggestions (of_rule (rl_name rule_indentation) results)).
Proof.
  intros HP HI HN HR Hin. pose proof (C63_indentation_is_reported_exactly dbg src t errs cf rules results HP HI HN Hin HR) as E.
  eapply (exactly_pairwise results (rl_name rule_indentation)); [exact E| |].
  - intros x r _ D. unfold indentation_report in D. apply (f_equal sh_edits) in D. apply shown_one in D as (g & -> & _). split; constructor.
  - intros x y r r' a b (Fx & _) (Fy & _) N Dx Dy Ha Hb O.
    unfold indentation_report in Dx, Dy. apply (f_equal sh_edits) in Dx, Dy. apply shown_one in Dx as (g & Eg & S & E1). apply shown_one in Dy as (g' & Eg' & S' & E1').
    rewrite Eg in Ha. rewrite Eg' in Hb. destruct Ha as [<-|[]]. destruct Hb as [<-|[]].
    assert (K : forall z s, first_in_line (walked t) z -> sg_start s = el_start z -> sg_end s = el_start z + blen (leading z) -> whole_token t z s \/ between_tokens t s).
    { intros z s (u & v & Ew & _) Sz Ez. assert (Hz : In z (walked t)) by (rewrite Ew; apply in_or_app; right; now left).
      unfold walked in Hz. apply filter_In in Hz as [Hz Nz]. apply filter_In in Hz as [Hz _]. apply negb_true_iff in Nz. unfold leading in Ez.
      destruct (kind_eqb (el_kind z) TK_WHITESPACE).
      - left. split; [exact Hz|]. split; [exact Nz|]. split; [exact Sz|]. now rewrite el_end_text.
      - right. change (blen []) with 0 in Ez. split; [lia|]. exists z. auto. }
    destruct (K x g Fx S E1) as [Wx|Bx], (K y g' Fy S' E1') as [Wy|By].
    + apply N. exact (whole_apart _ _ _ _ _ Wx Wy O).
    + exact (between_apart _ _ _ _ Wx By O).
    + exact (between_apart _ _ _ _ Wy Bx (overlap_sym _ _ O)).
    + exact (between_both _ _ _ Bx By O).
Qed.

(** Line breaks around blocks: two sides of blocks, and the same token is meant. *)
Definition shared_line_break (t : tree) (cf : config) : Prop :=
  exists b s b' s' x n n', In b (elements t) /\ In b' (elements t) /\ a_node TWIG_BLOCK b /\ a_node TWIG_BLOCK b' /\ (b, s) <> (b', s') /\
    wanted_at cf b s x n /\ wanted_at cf b' s' x n' /\ el_kind x = TK_LINE_BREAK.
Lemma wanted_token t cf b s x n : In b (elements t) -> wanted_at cf b s x n -> In x (elements t) /\ is_node (el_tree x) = false.
Proof.
  intros Hb W. pose proof W as W0. destruct s.
  - destruct W as (p & be & af & pr & ne & st & en & A & _ & _ & S & _ & _ & lead & L & F & _).
    split; [|now apply PropIndent.first_token_at_leaf in F as [_ F]].
    apply within_elements. eapply within_first_token; [|exact F].
    destruct L as [(c & r & E & _ & ->)|[-> _]].
    + apply elements_within. apply (around_element t p b be af c Hb A). left. rewrite E. now left.
    + eapply within_support_child; [apply elements_within; exact Hb|exact S].
  - destruct W as (p & be & af & pr & ne & st & en & A & _ & _ & _ & E & _ & (l & Hl & Hn) & _).
    assert (Wl : within t l) by (eapply within_last_token; [|exact Hl]; eapply within_support_child; [apply elements_within; exact Hb|exact E]).
    split; [apply within_elements; eapply within_next_token; eauto|]. now destruct (PropIndent.next_token_adjacent t l x Wl Hn).
Qed.
Lemma block_lines_apart dbg src t errs cf rules results : parse_src dbg src = OK (t, errs) ->
  incl rules RULE_DEFINITIONS -> NoDup (map rl_name rules) -> run_rules cf rules t = Done results -> In rule_block_line_breaks rules ->
  pairwise (fun a b => overlap a b -> shared_line_break t cf) (flat_map rs_suggestions (of_rule (rl_name rule_block_line_breaks) results)).
Proof.
  intros HP HI HN HR Hin. pose proof (C60_line_breaks_around_blocks_are_reported_exactly dbg src t errs cf rules results HP HI HN Hin HR) as E.
  eapply (exactly_pairwise results (rl_name rule_block_line_breaks)); [exact E| |].
  - intros [b s] r _ (x & n & _ & [[_ D]|[_ D]]); apply (f_equal sh_edits) in D; apply shown_one in D as (g & -> & _); split; constructor.
  - intros [b s] [b' s'] r r' g g' (Hb & _ & Kb & _) (Hb' & _ & Kb' & _) N (x & n & W & D) (x' & n' & W' & D') Hg Hg' O. cbn [fst snd] in *.
    assert (K : forall y s0 z m rr gg, In y (elements t) -> wanted_at cf y s0 z m -> In gg (rs_suggestions rr) ->
      ((el_kind z = TK_LINE_BREAK /\ show rr = mkShown SHelp (Some (el_start z, el_end z)) [(el_start z, el_end z, line_breaks cf m)]) \/
       (el_kind z <> TK_LINE_BREAK /\ show rr = mkShown SHelp (Some (el_start z, el_start z)) [(el_start z, el_start z, line_breaks cf m)])) ->
      (whole_token t z gg /\ el_kind z = TK_LINE_BREAK) \/ between_tokens t gg).
    { intros y s0 z m rr gg Hy Wz Hgg Dz. destruct (wanted_token t cf y s0 z m Hy Wz) as [Hz Nz].
      destruct Dz as [[Kz Dz]|[Kz Dz]]; apply (f_equal sh_edits) in Dz; apply shown_one in Dz as (g0 & Eg & S & E0); rewrite Eg in Hgg; destruct Hgg as [<-|[]].
      - left. split; [|exact Kz]. split; auto.
      - right. split; [congruence|]. exists z. auto. }
    destruct (K b s x n r g Hb W Hg D) as [[Wx Kx]|Bx], (K b' s' x' n' r' g' Hb' W' Hg' D') as [[Wy Ky]|By].
    + pose proof (whole_apart _ _ _ _ _ Wx Wy O) as <-. exists b, s, b', s', x, n, n'. auto 9.
    + destruct (between_apart _ _ _ _ Wx By O).
    + destruct (between_apart _ _ _ _ Wy Bx (overlap_sym _ _ O)).
    + destruct (between_both _ _ _ Bx By O).
Qed.

(** Identity operators: one comparison inside of another one. *)
Definition nested_comparison (k : kind) (t : tree) : Prop :=
  exists b op b' op', In b (elements t) /\ operator_use k b op /\ operator_use k b' op' /\ In b' (preorder_elem b) /\ b' <> b.
Definition nested_right (k : kind) (t : tree) : Prop :=
  exists b l op r b' op', In b (elements t) /\ operator_use k b op /\ parts b = [l; op; r] /\ In b' (preorder_elem r) /\ operator_use k b' op'.
Lemma same_as_suggestion name k sh new ctx e s : Schema.junk k = false -> In s (suggestions_of (rule_same_as name k sh new) ctx e) ->
  exists o rhs, operator_use k e o /\ binary_operator e = Some o /\ rhs_expression e = Some rhs /\
    sg_start s = Nat.min (el_start o) (el_start rhs) /\ sg_end s = Nat.max (el_end o) (el_end rhs).
Proof.
  intros J. unfold suggestions_of, rule_same_as, node_rule. cbn [rl_node rl_token]. destruct (is_node (el_tree e)) eqn:N; [|intros []].
  match goal with |- In s (flat_map _ (match ?x with _ => _ end)) -> _ => destruct x as [r|] eqn:H; [|intros []] end.
  cbn [flat_map]. rewrite app_nil_r. intros Hs. step H. pose proof (proj1 (cast_iff _ _ _) E) as [_ C]. apply cast_is in E as ->. step H.
  step H; [discriminate H|]. apply negb_false_iff in B. apply kind_eqb_eq in B. destruct (rhs_expression e) as [rhs|] eqn:R.
  - injection H as <-. cbn in Hs. destruct Hs as [<-|[]]. exists x, rhs. destruct (operator_child _ _ E) as [Ox Nx].
    split; [|auto]. assert (K : a_token k x). { apply a_token_kind. rewrite Nx, B. apply kind_eqb_refl. }
    split; [exact C|]. split; [exact K|]. unfold parts. apply filter_In. split; [exact Ox|]. destruct K as (tx & K). rewrite K. cbn [counts]. now rewrite J.
  - injection H as <-. destruct Hs.
Qed.

Lemma right_operand_child e r : rhs_expression e = Some r -> In r (children_with_tokens e).
Proof. unfold rhs_expression. intros H. apply nth_error_In in H. unfold support_children, child_nodes in H. apply filter_In in H as [H _]. now apply filter_In in H as [H _]. Qed.
Lemma pairwise_few {A} (R : A -> A -> Prop) l : List.length l <= 1 -> pairwise R l.
Proof. destruct l as [|a [|b l]]; cbn; [auto|split; auto|lia]. Qed.
Lemma node_rule_few name f ctx e : (forall c x r, f c x = Some r -> List.length (rs_suggestions r) <= 1) ->
  List.length (suggestions_of (node_rule name f) ctx e) <= 1.
Proof.
  intros H. unfold suggestions_of, node_rule. cbn [rl_node rl_token]. destruct (is_node (el_tree e)); [|cbn; lia].
  destruct (f ctx e) as [r|] eqn:F; cbn [flat_map]; [|cbn; lia]. rewrite app_nil_r. eauto.
Qed.
Lemma comparison_place t e o r : In e (elements t) -> binary_operator e = Some o -> rhs_expression e = Some r ->
  el_start e <= Nat.min (el_start o) (el_start r) /\ Nat.max (el_end o) (el_end r) <= el_end e.
Proof.
  intros He Ho Hr. apply operator_child in Ho as [Ho _]. apply right_operand_child in Hr.
  assert (G : forall c, In c (children_with_tokens e) -> el_start e <= el_start c /\ el_end c <= el_end e).
  { intros c Hc. apply PropKeep.below_inside. rewrite preorder_elem_unfold. right. apply in_flat_map. exists c. split; [exact Hc|apply preorder_self]. }
  apply G in Ho, Hr. lia.
Qed.
Lemma same_as_nested dbg src t errs cf rules results name k sh new : parse_src dbg src = OK (t, errs) -> Schema.junk k = false ->
  incl rules RULE_DEFINITIONS -> NoDup (map rl_name rules) -> run_rules cf rules t = Done results -> In (rule_same_as name k sh new) rules ->
  pairwise (fun a b => overlap a b -> nested_comparison k t /\ (errs = [] -> nested_right k t)) (flat_map rs_suggestions (of_rule name results)).
Proof.
  intros HP J HI HN HR Hin. apply (elementwise _ cf rules t results (rule_same_as name k sh new)); auto.
  - intros roots H. cbn in H. injection H as <-. reflexivity.
  - intros ctx e _ He. apply pairwise_few. apply node_rule_few. intros c x r H. step H. step H. step H; [discriminate H|].
    destruct (rhs_expression _); injection H as <-; cbn; lia.
  - intros ctx ctx' e e' a b _ _ He He' N Ha Hb O.
    apply same_as_suggestion in Ha as (o & r & U & Bo & Hr & S & E); [|exact J]. apply same_as_suggestion in Hb as (o' & r' & U' & Bo' & Hr' & S' & E'); [|exact J].
    destruct O as [O1 O2]. destruct (comparison_place t e o r He Bo Hr) as [P1 P2]. destruct (comparison_place t e' o' r' He' Bo' Hr') as [P1' P2'].
    assert (G : forall x y ox rx oy, In x (elements t) -> binary_operator x = Some ox -> operator_use k x ox -> rhs_expression x = Some rx -> operator_use k y oy ->
      In y (preorder_elem x) -> y <> x -> errs = [] -> Nat.min (el_start ox) (el_start rx) < el_end y -> nested_right k t).
    { intros x y ox rx oy Hx Bx Ux Rx Uy Hyx Nyx -> Lt. destruct Ux as (Kx & Kox & Pox).
      destruct (rhs_parts dbg src t HP x Hx Kx) as (l & op & rest & Ep & Bx' & _ & Kl & R). rewrite Bx in Bx'. injection Bx' as <-.
      destruct R as [[_ R]|(r0 & -> & Kr0 & R1 & R2)]; [rewrite Rx in R; discriminate R|].
      destruct Kl as [Kl|Kl]; [|rewrite (R2 Kl) in Rx; discriminate Rx]. rewrite (R1 Kl) in Rx. injection Rx as ->.
      exists x, l, ox, rx, y, oy. split; [exact Hx|]. split; [split; auto|]. split; [exact Ep|]. split; [|exact Uy].
      rewrite preorder_elem_unfold in Hyx. destruct Hyx as [<-|Hyx]; [contradiction|]. apply in_flat_map in Hyx as (c & Hc & Hyc).
      assert (Pc : In c (parts x)).
      { unfold parts. apply filter_In. split; [exact Hc|]. destruct (el_tree c) as [kc sc|kc cs] eqn:Ec; [|reflexivity].
        exfalso. rewrite (leaf_alone c y) in Uy; [|now rewrite Ec|exact Hyc]. destruct Uy as ((cs & K) & _). congruence. }
      rewrite Ep in Pc. destruct Pc as [<-|[<-|[<-|[]]]]; [| |exact Hyc].
      - exfalso. apply PropKeep.below_inside in Hyc.
        assert (OR : el_end l <= el_start ox /\ el_end ox <= el_start rx).
        { pose proof (parts_sorted x) as SS. rewrite Ep in SS. apply Sorted.StronglySorted_inv in SS as [S1 F1]. apply Sorted.StronglySorted_inv in S1 as [_ F2]. split; [exact (proj1 (Forall_inv F1))|exact (proj1 (Forall_inv F2))]. }
        pose proof (PropFits.start_end ox); lia.
      - exfalso. destruct Kox as (s0 & Kox). rewrite (leaf_alone ox y) in Uy; [|now rewrite Kox|exact Hyc]. destruct Uy as ((cs & K) & _). congruence. }
    destruct (elements_nested t e e' He He') as [A|[A|[A|A]]]; [lia|lia| |].
    + split; [exists e', o', e, o; auto 6|]. intros Er. apply (G e' e o' r' o); auto. lia.
    + split; [exists e, o, e', o'; auto 6|]. intros Er. apply (G e e' o r o'); auto. lia.
Qed.

(** * All rules *)
Definition collision (t : tree) (errs : list perror) (cf : config) (name : text) : Prop :=
  (name = txt "twig-use-is-same-as"%string /\ nested_comparison TK_TRIPLE_EQUAL t /\ (errs = [] -> nested_right TK_TRIPLE_EQUAL t)) \/
  (name = txt "twig-use-is-not-same-as"%string /\ nested_comparison TK_EXCLAMATION_MARK_DOUBLE_EQUALS t /\
     (errs = [] -> nested_right TK_EXCLAMATION_MARK_DOUBLE_EQUALS t)) \/
  (name = txt "twig-block-line-breaks"%string /\ shared_line_break t cf).
Lemma pairwise_imp {A} (R R' : A -> A -> Prop) l : (forall a b, R a b -> R' a b) -> pairwise R l -> pairwise R' l.
Proof. intros H. induction l as [|a l IH]; [auto|]. intros [F P]. split; [|auto]. eapply Forall_impl; [|exact F]. intros b. apply H. Qed.
Lemma rule_collision dbg src t errs cf rules results rl : parse_src dbg src = OK (t, errs) ->
  incl rules RULE_DEFINITIONS -> NoDup (map rl_name rules) -> run_rules cf rules t = Done results -> In rl rules ->
  pairwise (fun a b => overlap a b -> collision t errs cf (rl_name rl)) (flat_map rs_suggestions (of_rule (rl_name rl) results)).
Proof.
  intros HP HI HN HR Hin.
  assert (Q : forall l, pairwise (fun a b => ~ overlap a b) l -> pairwise (fun a b => overlap a b -> collision t errs cf (rl_name rl)) l).
  { intros l. apply pairwise_imp. intros a b N O. destruct (N O). }
  assert (NR : forall k, (rl_root rl = no_root) ->
    (forall ctx e, cx_config ctx = cf -> In e (elements t) -> tidy_edits t k e (suggestions_of rl ctx e)) ->
    pairwise (fun a b => overlap a b -> collision t errs cf (rl_name rl)) (flat_map rs_suggestions (of_rule (rl_name rl) results))).
  { intros k Er H. apply Q. apply (tidy_rule k cf rules t results rl HI HN HR Hin); [|exact H]. intros roots R. rewrite Er in R. injection R as <-. reflexivity. }
  assert (DR : (forall roots, rl_root rl (mkCtx cf false) (root_elem t) = Done roots -> flat_map rs_suggestions roots = []) ->
    (forall ctx e, suggestions_of rl ctx e = []) ->
    pairwise (fun a b => overlap a b -> collision t errs cf (rl_name rl)) (flat_map rs_suggestions (of_rule (rl_name rl) results))).
  { intros H1 H2. apply Q. apply (tidy_rule 0 cf rules t results rl HI HN HR Hin); [exact H1|]. intros ctx e _ _. rewrite H2. apply tidy_nil. }
  pose proof (HI rl Hin) as K. unfold RULE_DEFINITIONS in K.
  destruct K as [K|K].
  { subst rl. apply (NR 0); [reflexivity|]. intros ctx e _. apply quiet_node_rule. intros c x r H. step H. step H. step H; [|discriminate H]. injection H as <-. reflexivity. }
  destruct K as [K|K]; [subst rl; apply Q; eapply empty_lines_apart; eassumption|].
  destruct K as [K|K]; [subst rl; apply Q; eapply line_endings_apart; eassumption|].
  destruct K as [K|K]; [subst rl; apply Q; eapply indentation_apart; eassumption|].
  destruct K as [K|K].
  { subst rl. eapply pairwise_imp; [|eapply block_lines_apart; eassumption]. intros a b N O. right. right. split; [reflexivity|auto]. }
  destruct K as [K|K]; [subst rl; apply (NR 1); [reflexivity|apply block_names_tidy]|].
  destruct K as [K|K]; [subst rl; apply (NR 1); [reflexivity|apply attribute_names_tidy]|].
  destruct K as [K|K]; [subst rl; apply (NR 1); [reflexivity|apply logic_tidy]|].
  destruct K as [K|K]; [subst rl; apply (NR 1); [reflexivity|apply logic_tidy]|].
  destruct K as [K|K]; [subst rl; apply (NR 1); [reflexivity|apply twig_quotes_tidy]|].
  destruct K as [K|K]; [subst rl; apply (NR 1); [reflexivity|apply html_quotes_tidy]|].
  destruct K as [K|K]; [subst rl; apply (NR 2); [reflexivity|apply hash_keys_tidy]|].
  destruct K as [K|K]; [subst rl; apply (NR 1); [reflexivity|apply extends_tidy]|].
  destruct K as [K|K].
  { subst rl. eapply pairwise_imp; [|eapply same_as_nested; [eassumption| |eassumption..]; reflexivity]. intros a b N O. left. split; [reflexivity|auto]. }
  destruct K as [K|K].
  { subst rl. eapply pairwise_imp; [|eapply same_as_nested; [eassumption| |eassumption..]; reflexivity]. intros a b N O. right. left. split; [reflexivity|auto]. }
  destruct K as [K|K].
  { subst rl. apply DR; [intros roots; apply block_duplicate_quiet|]. intros ctx e. unfold suggestions_of. destruct (is_node (el_tree e)); reflexivity. }
  destruct K as [K|K]; [subst rl; apply (NR 3); [reflexivity|apply json_tidy]|].
  destruct K as [K|K].
  { subst rl. apply DR; [intros roots; apply duplicate_id_quiet|]. intros ctx e. unfold suggestions_of. destruct (is_node (el_tree e)); reflexivity. }
  destruct K as [K|K]; [subst rl; apply (NR 0); [reflexivity|intros; apply variables_quiet]|].
  destruct K as [K|K].
  { subst rl. apply (NR 0); [reflexivity|]. intros ctx e _. apply quiet_node_rule. intros c x r H. do 3 step H. step H; [|discriminate H]. injection H as <-. reflexivity. }
  destruct K as [K|K].
  { subst rl. apply (NR 0); [reflexivity|]. intros ctx e _. apply quiet_node_rule. intros c x r H. do 2 step H. step H; [discriminate H|]. do 2 step H. step H; [|discriminate H]. injection H as <-. reflexivity. }
  destruct K as [K|[]].
  { subst rl. apply (NR 0); [reflexivity|]. intros ctx e _. apply quiet_node_rule. intros c x r H. do 1 step H. step H; [discriminate H|]. do 2 step H. step H; [|discriminate H]. injection H as <-. reflexivity. }
Qed.

Lemma of_name_suggestions name results : filter (fun p => text_eqb (fst p) name) (rule_suggestions results) = rule_suggestions (of_rule name results).
Proof.
  induction results as [|r rs IH]; [reflexivity|]. unfold rule_suggestions, of_rule in *. cbn [flat_map filter]. rewrite filter_app, IH.
  assert (G : filter (fun p => text_eqb (fst p) name) (map (fun s => (rs_rule r, s)) (rs_suggestions r)) = if text_eqb (rs_rule r) name then map (fun s => (rs_rule r, s)) (rs_suggestions r) else []).
  { induction (rs_suggestions r) as [|s l IHl]; [now destruct (text_eqb _ _)|]. cbn [map filter]. rewrite IHl. cbn [fst]. now destruct (text_eqb (rs_rule r) name). }
  rewrite G. destruct (text_eqb (rs_rule r) name); reflexivity.
Qed.
Lemma pairwise_filter {A} (R : A -> A -> Prop) f l : pairwise (fun a b => f a = true -> f b = true -> R a b) l <-> pairwise R (filter f l).
Proof.
  induction l as [|a l IH]; [split; auto|]. cbn [filter]. destruct (f a) eqn:F.
  - cbn [pairwise]. rewrite <- IH. split; intros [H1 H2]; (split; [|exact H2]); apply Forall_forall; rewrite Forall_forall in H1; intros x Hx.
    + apply filter_In in Hx as [Hx Fx]. auto.
    + intros _ Fx. apply H1. apply filter_In. auto.
  - rewrite <- IH. split; [intros [_ H]; exact H|]. intros H. split; [|exact H]. apply Forall_forall. intros x _ X. congruence.
Qed.
Lemma pairwise_map_iff {A B} (R : B -> B -> Prop) (f : A -> B) l : pairwise (fun a b => R (f a) (f b)) l <-> pairwise R (map f l).
Proof.
  induction l as [|a l IH]; [split; auto|]. cbn [map pairwise]. rewrite <- IH, Forall_map. reflexivity.
Qed.
Lemma all_collisions dbg src t errs cf rules results sorted name : parse_src dbg src = OK (t, errs) ->
  incl rules RULE_DEFINITIONS -> NoDup (map rl_name rules) -> run_rules cf rules t = Done results ->
  Permutation (rule_suggestions results) sorted -> select_suggestions sorted = inl (OverlappingSuggestion name) ->
  collision t errs cf name /\ In name (map rl_name rules).
Proof.
  intros HP HI HN HR Pm Sel. destruct (C23_no_rule_collides_with_itself_partial _ _ Sel) as (m1 & a & b & m2 & E & O).
  assert (Hr : exists rl, In rl rules /\ rl_name rl = name).
  { assert (Ha : In (name, a) (rule_suggestions results)) by (apply (Permutation_in _ (Permutation_sym Pm)); rewrite E; apply in_elt).
    apply in_flat_map in Ha as (r & Hr & Ha). apply in_map_iff in Ha as (s & [= En _] & _). subst name.
    destruct (proj1 (C52_reports_name_their_rule cf rules t results HI HR) r Hr) as (rl & Hl & En). eauto. }
  destruct Hr as (rl & Hrl & <-). split; [|now apply in_map].
  pose proof (rule_collision dbg src t errs cf rules results rl HP HI HN HR Hrl) as PW.
  rewrite <- PropIndent.suggested_snd, <- of_name_suggestions in PW. apply pairwise_map_iff in PW. apply pairwise_filter in PW.
  apply (fun Sy => Settled.pairwise_perm _ Sy _ _ Pm) in PW; [|intros x y H F1 F2 O'; apply H; auto; apply overlap_sym; exact O'].
  rewrite E in PW. clear -PW O. cbv beta in PW. induction m1 as [|x m1 IH]; cbn [app pairwise] in PW; [|apply IH, PW].
  destruct PW as [PW _]. apply Forall_inv in PW. apply PW; auto; apply text_eqb_eq; reflexivity.
Qed.
