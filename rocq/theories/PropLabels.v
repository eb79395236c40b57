(** Property theorem C82: every message on stderr marks a place of the file. *)
From Coq Require Import NArith String Bool Lia Arith List.
Import ListNotations.
From Verif Require Import Text Kind Regex LexerProofs Naming ParserApi Machine TreeSpec PropParser Red Typed Rule Rules Check Process DefaultConfig RedFacts PropProcess Output Render Diagnostics PropReport.
From Verif Require PropFits.
Import PropFits (boundary_start, boundary_end, start_end, boundary_inside, find_iter_boundaries, walk_invariant,
  W_token, within_nth_children, within_find_tokens, within_name_operand).
Local Open Scope list_scope.
Local Notation length := List.length (only parsing).

(** The range of a label lies in the text, its ends between two characters. *)
Definition marks_range (t : text) (s e : nat) : Prop := s <= e /\ boundary t s /\ boundary t e.
Definition marks (t : text) (n : note) : Prop := marks_range t (nt_start n) (nt_end n).

Section Labels.
  Context (root : tree).
  Let N := marks (tree_text root).
  Definition good (r : result) : Prop :=
    exists p, rs_primary r = Some p /\ N p /\ Forall N (rs_secondary r).

  Lemma marks_elem e msg : within root e -> N (mkNote (el_start e) (el_end e) msg).
  Proof. intros W. repeat split; [apply start_end|apply boundary_start; exact W|apply boundary_end; exact W]. Qed.
  Lemma marks_at_start e msg : within root e -> N (mkNote (el_start e) (el_start e) msg).
  Proof. intros W. repeat split; [cbn; lia| |]; apply boundary_start; exact W. Qed.

  Lemma good_primary a b m n s t : N (mkNote a b m) -> good (primary_note a b m (create_result n s t)).
  Proof. intros H. exists (mkNote a b m). split; [reflexivity|]. split; [exact H|constructor]. Qed.
  Lemma good_secondary a b m r : good r -> N (mkNote a b m) -> good (secondary_note a b m r).
  Proof.
    intros (p & E & H & F) K. exists p. split; [exact E|]. split; [exact H|].
    cbn [secondary_note rs_secondary]. apply Forall_app. split; [exact F|constructor; [exact K|constructor]].
  Qed.
  Lemma good_add a b n m r : good r -> good (add_suggestion a b n m r).
  Proof. intros (p & E & H & F). exists p. split; [exact E|]. split; assumption. Qed.

  (** Rules for single nodes. *)
  Definition good_opt (o : option result) : Prop := match o with Some r => good r | None => True end.
  Lemma good_bind {A} (o : option A) f : (forall a, o = Some a -> good_opt (f a)) -> good_opt (obind o f).
  Proof. destruct o as [a|]; intros H; [apply H; reflexivity|exact I]. Qed.
  Lemma good_if (b : bool) x y : good_opt x -> good_opt y -> good_opt (if b then x else y).
  Proof. destruct b; auto. Qed.

  Definition good_rule (r : rule) : Prop := forall ctx e, within root e ->
    Forall good (rl_node r ctx e) /\ Forall good (rl_token r ctx e) /\
    match rl_root r ctx (root_elem root) with Done l => Forall good l | Crashed => True end.
  Lemma good_node_rule n f : (forall ctx e, within root e -> good_opt (f ctx e)) -> good_rule (node_rule n f).
  Proof.
    intros H ctx e W. specialize (H ctx e W). cbn [rl_node rl_token rl_root node_rule no_check no_root].
    destruct (f ctx e); repeat split; repeat constructor. exact H.
  Qed.

  Lemma good_ignore_file : good_rule rule_ignore_file_not_on_top.
  Proof.
    apply good_node_rule. intros ctx e W. apply good_bind. intros d D. apply (within_cast root) in D; [|exact W].
    apply good_bind. intros p _. apply good_if; [|exact I]. apply good_primary, marks_elem, D.
  Qed.
  Lemma good_whitespace : good_rule rule_whitespace_between_line_breaks.
  Proof.
    intros ctx e W. cbn [rl_node rl_token rl_root rule_whitespace_between_line_breaks no_check no_root].
    split; [constructor|]. split; [|constructor].
    match goal with |- Forall _ match ?x with _ => _ end => assert (H : good_opt x); [|destruct x; [constructor; [exact H|constructor]|constructor]] end.
    apply good_if; [exact I|]. apply good_bind. intros ws E1. apply good_if; [exact I|].
    apply good_bind. intros lb E2. apply good_if; [exact I|].
    apply good_add, good_primary, marks_elem. exact (within_next_token root e ws W E1).
  Qed.

  Lemma good_line_ending : good_rule rule_line_ending.
  Proof.
    intros ctx e W. cbn [rl_node rl_token rl_root rule_line_ending no_check no_root].
    split; [constructor|]. split; [|constructor]. destruct (negb _); [constructor|].
    apply Forall_map, Forall_forall. intros m Hm.
    destruct (find_iter_boundaries _ _ _ _ [] eq_refl m Hm) as (L & B1 & B2).
    apply good_add, good_primary. repeat split; cbn [nt_start nt_end].
    - lia.
    - apply boundary_inside; assumption.
    - apply boundary_inside; assumption.
  Qed.

  Lemma good_handle ctx x level sub : within root x -> Forall good (handle_first_token_in_line ctx x level sub).
  Proof.
    intros W. unfold handle_first_token_in_line. destruct (kind_eqb (el_kind x) TK_WHITESPACE).
    - destruct (negb _); constructor; [|constructor]. apply good_add, good_primary, marks_elem, W.
    - destruct (_ || _); constructor; [|constructor]. apply good_add, good_primary, marks_at_start, W.
  Qed.
  Lemma good_indentation : good_rule rule_indentation.
  Proof.
    intros ctx e _. cbn [rl_node rl_token rl_root rule_indentation no_check]. split; [constructor|]. split; [constructor|].
    unfold indent_root. cbn [root_elem el_tree el_off el_path].
    destruct (walk true (indent_enter ctx) (indent_leave ctx) root 0 [] _) as [s|] eqn:H; [|exact I].
    change (walk_elem true (indent_enter ctx) (indent_leave ctx) (root_elem root) (mkIndent true 0 0 false false []) = Done s) in H.
    revert H. apply (walk_invariant root true (indent_enter ctx) (indent_leave ctx) (fun s => Forall good (in_results s))).
    - intros s0 x s' b W P. unfold indent_enter. destruct (is_node (el_tree x)).
      + destruct (kind_eqb (el_kind x) ERROR); [intros [= <- <-]; exact P|].
        destruct (ignore_enter _ _ x) as [ign sk]. destruct sk; intros [= <- <-]; exact P.
      + destruct (kind_eqb (el_kind x) TK_LINE_BREAK); intros [= <- <-]; cbn [in_results]; [exact P|].
        apply Forall_app. split; [exact P|]. destruct (_ && _ && _); [apply good_handle; exact W|constructor].
    - intros s0 x s' W P. unfold indent_leave. destruct (is_node (el_tree x)); [|intros [= <-]; exact P].
      destruct (if indents _ x then _ else _); [|discriminate]. destruct (checked_sub _ _); [|discriminate].
      intros [= <-]. exact P.
    - apply within_root.
    - constructor.
  Qed.

  Lemma good_check_line_break n t new amount : (forall x, t = Some x -> within root x) ->
    Forall good (check_line_break n (t, new, amount)).
  Proof.
    intros W. unfold check_line_break. destruct t as [x|]; [|constructor]. specialize (W x eq_refl).
    destruct (kind_eqb (el_kind x) TK_LINE_BREAK).
    - destruct (negb _); constructor; [|constructor]. apply good_add, good_primary, marks_elem, W.
    - constructor; [|constructor]. apply good_add, good_primary, marks_at_start, W.
  Qed.
  Lemma good_block_line_breaks : good_rule rule_block_line_breaks.
  Proof.
    intros ctx e W. cbn [rl_node rl_token rl_root rule_block_line_breaks no_check no_root].
    split; [|split; constructor].
    assert (G : match check_block_line_breaks ctx e with Some l => Forall good l | None => True end).
    2: { destruct (check_block_line_breaks ctx e); [exact G|constructor]. }
    unfold check_block_line_breaks. destruct (cx_sensitive ctx); [exact I|].
    destruct (cast TWIG_BLOCK e) as [block|] eqn:C; cbn [obind]; [|exact I].
    apply (within_cast root) in C; [|exact W].
    match goal with |- match (if ?b then _ else _) with _ => _ end => destruct b end; [exact I|].
    destruct (starting_block block) as [st|] eqn:S; cbn [obind]; [|exact I].
    apply (within_support_child root) in S; [|exact C].
    destruct (ending_block block) as [en|] eqn:E; cbn [obind]; [|exact I].
    apply (within_support_child root) in E; [|exact C].
    cbn [flat_map]. rewrite app_nil_r. apply Forall_app. split; apply good_check_line_break; intros x Hx.
    - assert (Wp : within root match prev_sibling block with
                   | Some n => if is_comment_kind (el_kind n) then n else st | None => st end).
      { destruct (prev_sibling block) as [n|] eqn:P; [|exact S].
        destruct (is_comment_kind (el_kind n)); [exact (within_prev_sibling root _ _ C P)|exact S]. }
      exact (within_first_token root _ x Wp Hx).
    - destruct (last_token en) as [l|] eqn:L; cbn [obind] in Hx; [|discriminate].
      apply (within_last_token root) in L; [|exact E].
      destruct (next_token l) as [t|] eqn:T; cbn [obind] in Hx; [|discriminate].
      apply (within_next_token root) in T; [|exact L].
      match type of Hx with (if ?b then _ else _) = _ => destruct b end; [|discriminate]. injection Hx as <-. exact T.
  Qed.

  Lemma good_snake_case : good_rule rule_block_name_snake_case.
  Proof.
    apply good_node_rule. intros ctx e W. apply good_bind. intros s Es. apply (within_cast root) in Es; [|exact W].
    apply good_bind. intros n En. apply (W_token root _ _ _ Es) in En. apply good_if; [|exact I]. cbn zeta. cbn [good_opt].
    destruct (try_make_snake_case _ _); [apply good_add|]; apply good_primary, marks_elem, En.
  Qed.
  Lemma good_kebab_case : good_rule rule_attribute_name_kebab_case.
  Proof.
    apply good_node_rule. intros ctx e W. apply good_bind. intros s Es. apply (within_cast root) in Es; [|exact W].
    apply good_bind. intros n En. apply (W_token root _ _ _ Es) in En. apply good_bind. intros tag _.
    apply good_if; [exact I|]. apply good_if; [|exact I]. cbn zeta. cbn [good_opt].
    destruct (try_make_kebab_case _); [apply good_add|]; apply good_primary, marks_elem, En.
  Qed.
  Lemma good_logic n op shown new : good_rule (rule_logic n op shown new).
  Proof.
    apply good_node_rule. intros ctx e W. apply good_bind. intros b Eb. apply (within_cast root) in Eb; [|exact W].
    apply good_bind. intros o Eo. apply (within_find_tokens root _ _ _ Eb) in Eo. apply good_if; [|exact I].
    apply good_add, good_primary, marks_elem, Eo.
  Qed.
  (** The range without leading trivia. *)
  Lemma trees_text_cons t ts : trees_text (t :: ts) = tree_text t ++ trees_text ts.
  Proof. reflexivity. Qed.
  Lemma trim_nothing : forall cs s e, blen (trees_text (map el_tree cs)) = 0 -> trim_trivia cs s e = s.
  Proof.
    induction cs as [|c cs IH]; intros s e H; [reflexivity|]. cbn [trim_trivia]. destruct (negb _ && _); [|reflexivity].
    cbn [map] in H. rewrite trees_text_cons, blen_app in H. rewrite tree_len_text.
    replace (blen (tree_text (el_tree c))) with 0 by lia. cbn zeta. rewrite Nat.add_0_r.
    destruct (Nat.ltb s e); apply IH; lia.
  Qed.
  Lemma trim_boundary : forall cs s e, s + blen (trees_text (map el_tree cs)) = e ->
    exists i, trim_trivia cs s e = s + i /\ boundary (trees_text (map el_tree cs)) i.
  Proof.
    assert (Z : forall t, boundary t 0) by (intros t; exists [], t; split; reflexivity).
    induction cs as [|c cs IH]; intros s e H; [exists 0; split; [cbn; lia|apply Z]|].
    cbn [trim_trivia map] in *. rewrite trees_text_cons in *. rewrite blen_app in H.
    destruct (negb _ && _); [|exists 0; split; [lia|apply Z]]. cbn zeta. rewrite tree_len_text.
    destruct (Nat.ltb_spec (s + blen (tree_text (el_tree c))) e) as [L|L].
    - destruct (IH (s + blen (tree_text (el_tree c))) e) as (i & -> & x & y & E & B); [lia|].
      exists (blen (tree_text (el_tree c)) + i). split; [lia|]. exists (tree_text (el_tree c) ++ x), y.
      rewrite E, <- app_assoc. split; [reflexivity|]. rewrite blen_app. lia.
    - rewrite trim_nothing by lia. exists 0. split; [lia|apply Z].
  Qed.
  Lemma marks_trimmed e msg : within root e -> N (mkNote (fst (range_trimmed_trivia e)) (snd (range_trimmed_trivia e)) msg).
  Proof.
    intros W. unfold range_trimmed_trivia. cbn [fst snd].
    destruct (el_tree e) as [k s|k cs] eqn:T.
    - replace (children_with_tokens e) with (@nil elem) by (unfold children_with_tokens; rewrite T; reflexivity).
      cbn [trim_trivia]. apply marks_elem, W.
    - assert (X : el_text e = trees_text (map el_tree (children_with_tokens e))).
      { rewrite children_with_tokens_trees, T. unfold el_text. rewrite T. apply tree_text_node. }
      destruct (trim_boundary (children_with_tokens e) (el_start e) (el_end e)) as (i & E & B).
      { rewrite <- X. symmetry. apply el_end_text. }
      rewrite <- X in B. unfold N, marks, marks_range. cbn [nt_start nt_end]. rewrite E. split; [|split].
      + destruct B as (x & y & Ex & <-). rewrite el_end_text, Ex, blen_app. lia.
      + apply boundary_inside; assumption.
      + apply boundary_end, W.
  Qed.
  Lemma good_check_quotes n q str inner : within root str -> good_opt (check_quotes n q str inner).
  Proof.
    intros W. unfold check_quotes. apply good_if; [|exact I].
    destruct (range_trimmed_trivia str) as [a b] eqn:R. pose proof (fun m => marks_trimmed str m W) as M. rewrite R in M. cbn [fst snd] in M.
    cbn [good_opt]. unfold change_quotes. destruct inner as [i|]; [|apply good_primary, M].
    destruct (contains_char _ _); [apply good_primary, M|].
    destruct (opening_quote str), (closing_quote str); apply good_add, good_add, good_primary, M.
  Qed.
  Lemma good_twig_quotation : good_rule rule_twig_string_quotation.
  Proof.
    apply good_node_rule. intros ctx e W. apply good_bind. intros s Es. apply (within_cast root) in Es; [|exact W].
    cbn zeta. apply good_if; [exact I|]. apply good_check_quotes. exact Es.
  Qed.
  Lemma good_html_quotation : good_rule rule_html_string_quotation.
  Proof.
    apply good_node_rule. intros ctx e W. apply good_bind. intros s Es. apply (within_cast root) in Es; [|exact W].
    apply good_check_quotes. exact Es.
  Qed.
  Lemma good_hash_key : good_rule rule_hash_key_no_quotes.
  Proof.
    apply good_node_rule. intros ctx e W. apply good_bind. intros k Ek. apply (within_cast root) in Ek; [|exact W].
    apply good_bind. intros s Es. apply (within_support_child root) in Es; [|exact Ek].
    apply good_bind. intros i Ei. apply good_if; [|exact I].
    destruct (range_trimmed_trivia s) as [a b] eqn:R. pose proof (fun m => marks_trimmed s m Es) as M. rewrite R in M. cbn [fst snd] in M.
    cbn zeta. cbn [good_opt]. destruct (opening_quote s), (closing_quote s); apply good_add, good_add, good_primary, M.
  Qed.
  Lemma good_extends : good_rule rule_prefer_shopware_extends.
  Proof.
    apply good_node_rule. intros ctx e W. apply good_bind. intros x Ex. apply (within_cast root) in Ex; [|exact W].
    apply good_bind. intros k Ek. apply (W_token root _ _ _ Ex) in Ek.
    apply good_add, good_primary, marks_elem, Ex.
  Qed.
  Lemma good_same_as n op shown new : good_rule (rule_same_as n op shown new).
  Proof.
    apply good_node_rule. intros ctx e W. apply good_bind. intros b Eb. apply (within_cast root) in Eb; [|exact W].
    apply good_bind. intros o Eo. apply (within_find_tokens root _ _ _ Eb) in Eo. apply good_if; [exact I|]. cbn zeta. cbn [good_opt].
    destruct (rhs_expression b); [apply good_add|]; apply good_primary, marks_elem, Eo.
  Qed.
  (** The duplicate rules also point to elements they have kept. *)
  Definition kept (s : dup_state) : Prop := Forall good (dp_results s) /\ Forall (fun p => within root (snd p)) (dp_table s).
  Lemma within_lookup k l x : Forall (fun p => within root (snd p)) l -> lookup k l = Some x -> within root x.
  Proof.
    induction 1 as [|[k' v] l H F IH]; cbn [lookup]; [discriminate|]. destruct (text_eqb k' k); [|exact IH].
    intros E. injection E as <-. exact H.
  Qed.
  Lemma good_duplicate name enter ctx : (forall s e s' b, within root e -> enter s e = Done (s', b) -> kept s -> kept s') ->
    match duplicate_root name enter ctx (root_elem root) with Done l => Forall good l | Crashed => True end.
  Proof.
    intros HE. unfold duplicate_root. cbn [root_elem el_tree el_off el_path].
    destruct (walk false enter (duplicate_leave name) root 0 [] _) as [s|] eqn:H; [|exact I].
    change (walk_elem false enter (duplicate_leave name) (root_elem root) (mkDup [] false []) = Done s) in H.
    enough (K : kept s) by exact (proj1 K).
    revert H. apply (walk_invariant root false enter (duplicate_leave name) kept).
    - intros s0 x s' b W P H. exact (HE _ _ _ _ W H P).
    - intros s0 x s' W P [= <-]. exact P.
    - apply within_root.
    - split; constructor.
  Qed.
  Lemma within_block_name b n : within root b -> block_name b = Some n -> within root n.
  Proof.
    intros W H. unfold block_name in H. destruct (starting_block b) as [st|] eqn:S; cbn [obind] in H; [|discriminate].
    apply (within_support_child root) in S; [|exact W]. exact (W_token root _ _ _ S H).
  Qed.
  Lemma within_attribute_inner a n : within root a -> attribute_inner a = Some n -> within root n.
  Proof.
    intros W H. unfold attribute_inner in H. destruct (attribute_value a) as [v|] eqn:S; cbn [obind] in H; [|discriminate].
    apply (within_support_child root) in S; [|exact W]. exact (within_support_child root _ _ _ S H).
  Qed.
  Lemma good_block_duplicate : good_rule rule_block_duplicate.
  Proof.
    intros ctx e _. cbn [rl_node rl_token rl_root rule_block_duplicate no_check]. split; [constructor|]. split; [constructor|].
    apply good_duplicate. intros s x s' b W H (P & T). unfold block_duplicate_enter in H.
    destruct (ignore_enter _ _ x) as [ign sk]. destruct sk; [injection H as <- <-; split; assumption|].
    destruct ign; injection H as <- <-; [split; assumption|]. unfold block_duplicate_visit.
    destruct (cast TWIG_BLOCK x) as [k|] eqn:C; cbn [obind]; [|split; assumption].
    apply (within_cast root) in C; [|exact W].
    destruct (block_name k) as [n|] eqn:Bn; cbn [obind dp_table dp_ignored dp_results]; [|split; assumption].
    apply (within_block_name _ _ C) in Bn. destruct (lookup (el_text n) (dp_table s)) as [b0|] eqn:L; cbn [obind].
    - apply (within_lookup _ _ _ T) in L. destruct (block_name b0) as [f|] eqn:F.
      + apply (within_block_name _ _ L) in F. split; [|exact T]. cbn [dp_results]. apply Forall_app. split; [exact P|].
        constructor; [|constructor]. apply good_secondary; [apply good_primary, marks_elem, Bn|apply marks_elem, F].
      + split; [exact P|]. constructor; [exact C|exact T].
    - split; [exact P|]. constructor; [exact C|exact T].
  Qed.
  Lemma within_static_id a n : within root a -> static_id a = Some n -> within root n.
  Proof.
    intros W H. unfold static_id in H. destruct (attribute_name a); cbn [obind] in H; [|discriminate].
    destruct (negb _); [discriminate|]. destruct (attribute_inner a) as [i|] eqn:I; cbn [obind] in H; [|discriminate].
    apply (within_attribute_inner _ _ W) in I. destruct (child_nodes i); [|discriminate].
    destruct (el_text i); [discriminate|]. injection H as <-. exact I.
  Qed.
  Lemma good_duplicate_id : good_rule rule_duplicate_id.
  Proof.
    intros ctx e _. cbn [rl_node rl_token rl_root rule_duplicate_id no_check]. split; [constructor|]. split; [constructor|].
    apply good_duplicate. intros s x s' b W H (P & T). unfold duplicate_id_enter in H.
    destruct (kind_eqb (el_kind x) ERROR); [injection H as <- <-; split; assumption|].
    destruct (ignore_enter _ _ x) as [ign sk]. destruct sk; [injection H as <- <-; split; assumption|].
    destruct ign; injection H as <- <-; [split; assumption|]. unfold duplicate_id_visit.
    destruct (cast HTML_ATTRIBUTE x) as [k|] eqn:C; cbn [obind]; [|split; assumption].
    apply (within_cast root) in C; [|exact W].
    destruct (static_id k) as [n|] eqn:Bn; cbn [obind dp_table dp_ignored dp_results]; [|split; assumption].
    apply (within_static_id _ _ C) in Bn. destruct (lookup (el_text n) (dp_table s)) as [b0|] eqn:L; cbn [obind].
    - apply (within_lookup _ _ _ T) in L. destruct (attribute_inner b0) as [f|] eqn:F.
      + apply (within_attribute_inner _ _ L) in F. split; [|exact T]. cbn [dp_results]. apply Forall_app. split; [exact P|].
        constructor; [|constructor]. apply good_secondary; [apply good_primary, marks_elem, Bn|apply marks_elem, F].
      + split; [exact P|]. constructor; [exact C|exact T].
    - split; [exact P|]. constructor; [exact C|exact T].
  Qed.
  Lemma good_json : good_rule rule_json_encode_escape_js.
  Proof.
    apply good_node_rule. intros ctx e W. apply good_bind. intros f Ef. apply (within_cast root) in Ef; [|exact W].
    apply good_bind. intros r Er. apply (within_nth_children root _ _ _ _ Ef) in Er.
    apply good_bind. intros t Et. apply (within_name_operand root _ _ Er) in Et.
    apply good_if; [exact I|]. apply good_if; [exact I|].
    apply good_add, good_primary, marks_elem, Et.
  Qed.
  Lemma good_naming : good_rule rule_variable_definition_naming.
  Proof.
    intros ctx e W. cbn [rl_node rl_token rl_root rule_variable_definition_naming no_check no_root].
    split; [|split; constructor]. destruct (negb _); [constructor|].
    assert (G : forall b, Forall good (check_literal_names e b)).
    { intros b. apply Forall_forall. intros r Hr. apply in_flat_map in Hr. destruct Hr as (n & Hn & Hr).
      apply (within_support_children root _ _ _ W) in Hn. destruct (literal_name n) as [t|] eqn:L; [|destruct Hr].
      apply (W_token root _ _ _ Hn) in L. apply in_app_or in Hr.
      destruct Hr as [Hr|Hr]; match type of Hr with In _ (if ?b then _ else _) => destruct b end;
        destruct Hr as [<-|[]] || destruct Hr; apply good_primary, marks_elem, L. }
    destruct (el_kind e); try apply G; constructor.
  Qed.
  Lemma within_name_or_call e t : within root e -> name_or_call e = Some t -> within root t.
  Proof.
    intros W H. unfold name_or_call in H. destruct (support_child TWIG_LITERAL_NAME e) as [n|] eqn:L.
    - apply (within_support_child root _ _ _ W) in L. exact (W_token root _ _ _ L H).
    - destruct (support_child TWIG_FUNCTION_CALL e) as [f|] eqn:F; cbn [obind] in H; [|discriminate].
      apply (within_support_child root _ _ _ W) in F. destruct (name_operand f) as [o|] eqn:O; cbn [obind] in H; [|discriminate].
      apply (within_support_child root _ _ _ F) in O. exact (within_name_operand root _ _ O H).
  Qed.
  Lemma good_valid_filter : good_rule rule_valid_filter.
  Proof.
    apply good_node_rule. intros ctx e W. apply good_bind. intros f Ef. apply (within_cast root) in Ef; [|exact W].
    apply good_bind. intros r Er. apply (within_nth_children root _ _ _ _ Ef) in Er. apply good_bind. intros t Et.
    apply (within_name_or_call _ _ Er) in Et. apply good_if; [|exact I]. apply good_primary, marks_elem, Et.
  Qed.
  Lemma good_valid_test : good_rule rule_valid_test.
  Proof.
    apply good_node_rule. intros ctx e W. apply good_bind. intros f Ef. apply (within_cast root) in Ef; [|exact W].
    apply good_bind. intros o _. apply good_if; [exact I|]. apply good_bind. intros r Er.
    apply (within_nth_children root _ _ _ _ Ef) in Er. apply good_bind. intros t Et.
    apply (within_name_or_call _ _ Er) in Et. apply good_if; [|exact I]. apply good_primary, marks_elem, Et.
  Qed.
  Lemma good_valid_function : good_rule rule_valid_function.
  Proof.
    apply good_node_rule. intros ctx e W. apply good_bind. intros f Ef. apply (within_cast root) in Ef; [|exact W].
    apply good_if; [exact I|]. apply good_bind. intros o Eo. apply (within_support_child root _ _ _ Ef) in Eo.
    apply good_bind. intros t Et. apply (within_name_operand root _ _ Eo) in Et.
    apply good_if; [|exact I]. apply good_primary, marks_elem, Et.
  Qed.
  Lemma good_definitions : Forall good_rule RULE_DEFINITIONS.
  Proof.
    unfold RULE_DEFINITIONS.
    apply Forall_cons; [exact good_ignore_file|].
    apply Forall_cons; [exact good_whitespace|].
    apply Forall_cons; [exact good_line_ending|].
    apply Forall_cons; [exact good_indentation|].
    apply Forall_cons; [exact good_block_line_breaks|].
    apply Forall_cons; [exact good_snake_case|].
    apply Forall_cons; [exact good_kebab_case|].
    apply Forall_cons; [exact (good_logic _ _ _ _)|].
    apply Forall_cons; [exact (good_logic _ _ _ _)|].
    apply Forall_cons; [exact good_twig_quotation|].
    apply Forall_cons; [exact good_html_quotation|].
    apply Forall_cons; [exact good_hash_key|].
    apply Forall_cons; [exact good_extends|].
    apply Forall_cons; [exact (good_same_as _ _ _ _)|].
    apply Forall_cons; [exact (good_same_as _ _ _ _)|].
    apply Forall_cons; [exact good_block_duplicate|].
    apply Forall_cons; [exact good_json|].
    apply Forall_cons; [exact good_duplicate_id|].
    apply Forall_cons; [exact good_naming|].
    apply Forall_cons; [exact good_valid_filter|].
    apply Forall_cons; [exact good_valid_test|].
    apply Forall_cons; [exact good_valid_function|].
    apply Forall_nil.
  Qed.

  (** Running good rules gives good results. *)
  Lemma good_run cf rules results : Forall good_rule rules -> run_rules cf rules root = Done results -> Forall good results.
  Proof.
    intros R H. unfold run_rules in H. destruct rules as [|r0 rs]; [injection H as <-; constructor|].
    remember (r0 :: rs) as rules. clear Heqrules.
    destruct (run_roots cf rules (root_elem root)) as [roots|] eqn:E; [|discriminate].
    assert (GR : Forall good roots).
    { clear H. revert roots E. induction R as [|r rules Hr R IH]; intros roots E; cbn [run_roots] in E; [injection E as <-; constructor|].
      destruct (Hr (mkCtx cf false) (root_elem root) (within_root root)) as (_ & _ & G).
      destruct (rl_root r (mkCtx cf false) (root_elem root)) as [a|]; [|discriminate].
      destruct (run_roots cf rules (root_elem root)) as [b|]; [|discriminate]. injection E as <-.
      apply Forall_app. split; [exact G|apply IH; reflexivity]. }
    destruct (run_walk cf rules root (mkRun [] false roots)) as [s|] eqn:Wk; [|discriminate]. injection H as <-.
    change (walk_elem true (run_enter cf rules) run_leave (root_elem root) (mkRun [] false roots) = Done s) in Wk.
    assert (GE : forall ign b x, within root x -> Forall good (run_element cf rules ign b x)).
    { intros ign b x W. apply Forall_forall. intros r Hr. apply in_flat_map in Hr. destruct Hr as (rl & Hrl & Hr).
      rewrite Forall_forall in R. destruct (R rl Hrl (mkCtx cf b) x W) as (G1 & G2 & _).
      destruct (mem_text (rl_name rl) ign); [destruct Hr|].
      rewrite Forall_forall in G1, G2. destruct (is_node (el_tree x)); [exact (G1 r Hr)|exact (G2 r Hr)]. }
    revert Wk. apply (walk_invariant root true (run_enter cf rules) run_leave (fun s => Forall good (ru_results s))).
    - intros s0 x s' b W P. unfold run_enter.
      assert (K : forall names, (if is_node (el_tree x)
        then if kind_eqb (el_kind x) ERROR then Done (mkRun (ru_ignored s0 ++ names) (ru_sensitive s0) (ru_results s0), true)
             else Done (mkRun (ru_ignored s0 ++ names) (if is_sensitive x then true else ru_sensitive s0)
                     (ru_results s0 ++ run_element cf rules (ru_ignored s0 ++ names) (if is_sensitive x then true else ru_sensitive s0) x), false)
        else Done (mkRun (ru_ignored s0 ++ names) (ru_sensitive s0)
                     (ru_results s0 ++ run_element cf rules (ru_ignored s0 ++ names) (ru_sensitive s0) x), false)) = Done (s', b) ->
        Forall good (ru_results s')).
      { intros names. destruct (is_node (el_tree x)); [destruct (kind_eqb (el_kind x) ERROR)|]; intros [= <- <-]; cbn [ru_results];
          [exact P| |]; (apply Forall_app; split; [exact P|apply GE; exact W]). }
      destruct (directive_before x) as [[|n l]|]; [intros [= <- <-]; exact P|apply K|apply K].
    - intros s0 x s' W P. unfold run_leave. destruct (remove_all _ _); [|discriminate]. intros [= <-]. exact P.
    - apply within_root.
    - exact GR.
  Qed.
End Labels.



(** * C82 *)

(** The message is about the file: it has exactly one main label, and all its labels lie in the
    text, with ends between two characters. *)
Definition shows_a_place (src : text) (d : diagnostic) : Prop :=
  List.length (filter lb_primary (dg_labels d)) = 1 /\
  forall l, In l (dg_labels d) -> marks_range src (lb_start l) (lb_end l).

Lemma secondary_labels {A : Type} (f : A -> label) l : (forall a, lb_primary (f a) = false) -> filter lb_primary (map f l) = [].
Proof. intros H. induction l as [|a l IH]; [reflexivity|]. cbn [map filter]. rewrite H. exact IH. Qed.

Theorem C82_messages_show_a_place : forall dbg src t errs cf rules results,
  parse_file dbg src = Done (t, errs) -> incl rules RULE_DEFINITIONS -> run_rules cf rules t = Done results ->
  exists ds, diagnostics (mkFile src t errs rules) results = Done ds /\ Forall (shows_a_place src) ds /\
    map dg_severity ds = repeat SError (length errs) ++ map rs_severity results.
Proof.
  intros dbg src t errs cf rules results P I R.
  assert (Q : parse_src dbg src = OK (t, errs)).
  { unfold parse_file in P. destruct (parse_src dbg src) as [[t' e']| |] eqn:Q; try discriminate. injection P as -> ->. reflexivity. }
  assert (T : tree_text t = src) by apply (C02_parse_lossless dbg src t errs Q).
  assert (G : Forall (good t) results).
  { apply (good_run t cf rules); [|exact R]. apply Forall_forall. intros r Hr.
    pose proof (good_definitions t) as D. rewrite Forall_forall in D. apply D, I, Hr. }
  pose proof (PropFits.C38_suggestions_fit_the_text _ _ _ _ _ _ _ P I R) as S.
  assert (E : exists ds, error_diagnostics errs = Done ds /\ Forall (shows_a_place src) ds /\ map dg_severity ds = repeat SError (length errs)).
  { assert (H : forall l, incl l errs -> exists ds, error_diagnostics l = Done ds /\ Forall (shows_a_place src) ds /\ map dg_severity ds = repeat SError (length l)).
    2: { apply H, incl_refl. }
    induction l as [|e l IH]; intros H; [exists []; repeat split; constructor|].
    destruct IH as (ds & E & F & M); [intros x Hx; apply H; right; exact Hx|].
    assert (He : In e errs) by (apply H; left; reflexivity).
    pose proof (C40_errors_printable dbg src t errs Q e He) as Pr. unfold error_display in Pr.
    cbn [error_diagnostics]. rewrite E. unfold error_diagnostic. destruct (expected_message e) as [m|]; [|elim Pr; reflexivity].
    eexists. split; [reflexivity|]. split; [|cbn [map dg_severity List.length repeat]; rewrite M; reflexivity]. constructor; [|exact F]. split; [reflexivity|].
    intros lb [<-|[]]. cbn [lb_start lb_end].
    destruct (C06_error_ranges dbg src t errs Q e He) as (L & _ & a & w & b & Es & B1 & B2 & _).
    repeat split; [lia| |].
    - exists a, (w ++ b). split; assumption.
    - exists (a ++ w), b. rewrite <- app_assoc. split; assumption. }
  destruct E as (ds & E & F & M). exists (ds ++ map result_diagnostic results).
  unfold diagnostics. cbn [fc_errors]. rewrite E. split; [reflexivity|]. split.
  2: { rewrite map_app, M, map_map. reflexivity. }
  apply Forall_app. split; [exact F|]. apply Forall_map, Forall_forall. intros r Hr.
  rewrite Forall_forall in G. destruct (G r Hr) as (p & Ep & Np & Fs). rewrite T in Np, Fs. split.
  - cbn [result_diagnostic dg_labels]. rewrite Ep. rewrite !filter_app, !secondary_labels by reflexivity. reflexivity.
  - cbn [result_diagnostic dg_labels]. rewrite Ep. intros l Hl. rewrite !in_app_iff, !in_map_iff in Hl.
    destruct Hl as [[<-|[]]|[(n & <- & Hn)|(s & <- & Hs)]]; cbn [lb_start lb_end].
    + exact Np.
    + rewrite Forall_forall in Fs. exact (Fs n Hn).
    + apply (S (rs_rule r) s). unfold rule_suggestions. apply in_flat_map. exists r. split; [exact Hr|].
      apply in_map_iff. exists s. split; [reflexivity|exact Hs].
Qed.

(** A syntax error, two blocks of the same name and a wrong operator after a three-byte character. *)
Example C82_case :
  match parse_file true ([8364]%N ++ txt "{% block b %}{% endblock %}{% block b %}{% endblock %}{{ a && c }}{{ }}"%string) with
  | Done (t, errs) =>
    match run_rules default_config [rule_block_duplicate; rule_logic_and] t with
    | Done rs =>
      match diagnostics (mkFile [] t errs []) rs with
      | Done ds => map (fun d => map (fun l => (lb_primary l, lb_start l, lb_end l)) (dg_labels d)) ds =
          [[(true, 72, 74)]; [(true, 39, 40); (false, 12, 13)]; [(true, 62, 64); (false, 62, 64)]]
      | Crashed => False
      end
    | Crashed => False
    end
  | Crashed => False
  end.
Proof. vm_compute. reflexivity. Qed.

(** The same for a whole run over a file: one message for each report that is sent, and the
    places are those of the text that is in the file afterwards. *)
Theorem C82_messages_of_a_run : forall dbg sort cf fix_opt inspect write_ok definitions content effects,
  incl definitions RULE_DEFINITIONS ->
  file_task dbg sort cf fix_opt inspect write_ok definitions (Some content) = (effects, Ok tt) ->
  exists t errs rules rs ds,
    parse_file dbg (file_after content effects) = Done (t, errs) /\ incl rules definitions /\ run_rules cf rules t = Done rs /\
    diagnostics (mkFile (file_after content effects) t errs rules) rs = Done ds /\
    Forall (shows_a_place (file_after content effects)) ds /\
    sent effects = FileProcessed :: (if inspect then [Report SInfo] else []) ++ map (fun d => Report (dg_severity d)) ds ++ [OutputStderrMessage].
Proof.
  intros dbg sort cf fix_opt inspect write_ok definitions content effects I H.
  destruct (C42_reports_describe_the_final_text dbg sort cf fix_opt inspect write_ok definitions content effects H)
    as (t0 & errs0 & t & errs & rs & P0 & P & R & S).
  assert (J : incl (get_file_active_rules (root_elem t0) definitions) definitions).
  { intros x Hx. unfold get_file_active_rules in Hx. destruct (disabled_rules _ _); [|destruct Hx]. apply filter_In in Hx. exact (proj1 Hx). }
  destruct (C82_messages_show_a_place dbg _ t errs cf _ rs P (incl_tran J I) R) as (ds & D & F & M).
  exists t, errs, (get_file_active_rules (root_elem t0) definitions), rs, ds. repeat split; try assumption.
  rewrite S. do 2 f_equal. rewrite app_assoc. f_equal.
  replace (map (fun d => Report (dg_severity d)) ds) with (map Report (map dg_severity ds)) by apply map_map.
  rewrite M, map_app, map_map. f_equal. clear. induction errs; cbn [List.length repeat map]; [reflexivity|]. f_equal. exact IHerrs.
Qed.

Print Assumptions C82_messages_show_a_place.
Print Assumptions C82_messages_of_a_run.
