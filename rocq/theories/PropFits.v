(** Property theorem C38: the suggestions of the rules fit the text. *)
From Coq Require Import NArith String Bool Lia Arith List.
Import ListNotations.
From Verif Require Import Text Kind Regex LexerProofs Naming ParserApi Machine TreeSpec PropParser Red Typed Rule Rules Check Process DefaultConfig RedFacts PropProcess.
Local Open Scope list_scope.
Local Notation length := List.length (only parsing).

(** * Boundaries at elements *)
Lemma boundary_start root e : within root e -> boundary (tree_text root) (el_start e).
Proof. intros W. destruct (within_text root e W) as (a & b & E & L). exists a, (el_text e ++ b). split; assumption. Qed.
Lemma boundary_end root e : within root e -> boundary (tree_text root) (el_end e).
Proof.
  intros W. destruct (within_text root e W) as (a & b & E & L). exists (a ++ el_text e), b.
  split; [rewrite E, <- app_assoc; reflexivity|]. rewrite blen_app, L, el_end_text. reflexivity.
Qed.
Lemma start_end e : el_start e <= el_end e.
Proof. rewrite el_end_text. lia. Qed.
Lemma boundary_inside root e i : within root e -> boundary (el_text e) i -> boundary (tree_text root) (el_start e + i).
Proof.
  intros W (x & y & E & L). destruct (within_text root e W) as (a & b & Er & La). exists (a ++ x), (y ++ b).
  split; [rewrite Er, E, <- !app_assoc; reflexivity|]. rewrite blen_app, La, L. reflexivity.
Qed.

Section Fits.
  Context (root : tree).
  Let F := fits (tree_text root).
  Definition good (r : result) : Prop := Forall F (rs_suggestions r).

  Lemma fits_elem e new msg : within root e -> F (mkSug (el_start e) (el_end e) new msg).
  Proof. intros W. repeat split; [apply start_end|apply boundary_start; exact W|apply boundary_end; exact W]. Qed.
  Lemma fits_at_start e new msg : within root e -> F (mkSug (el_start e) (el_start e) new msg).
  Proof. intros W. repeat split; [cbn; lia| |]; apply boundary_start; exact W. Qed.
  Lemma fits_at_end e new msg : within root e -> F (mkSug (el_end e) (el_end e) new msg).
  Proof. intros W. repeat split; [cbn; lia| |]; apply boundary_end; exact W. Qed.
  Lemma fits_cover a b new msg : within root a -> within root b ->
    F (mkSug (Nat.min (el_start a) (el_start b)) (Nat.max (el_end a) (el_end b)) new msg).
  Proof.
    intros Wa Wb. pose proof (start_end a). pose proof (start_end b). repeat split; cbn [sg_start sg_end].
    - lia.
    - destruct (Nat.min_spec (el_start a) (el_start b)) as [[_ ->]|[_ ->]]; apply boundary_start; assumption.
    - destruct (Nat.max_spec (el_end a) (el_end b)) as [[_ ->]|[_ ->]]; apply boundary_end; assumption.
  Qed.

  Lemma good_create n s m : good (create_result n s m).
  Proof. constructor. Qed.
  Lemma good_primary a b m r : good r -> good (primary_note a b m r).
  Proof. intros H. exact H. Qed.
  Lemma good_secondary a b m r : good r -> good (secondary_note a b m r).
  Proof. intros H. exact H. Qed.
  Lemma good_add a b n m r : good r -> F (mkSug a b n m) -> good (add_suggestion a b n m r).
  Proof. intros H K. apply Forall_app. split; [exact H|constructor; [exact K|constructor]]. Qed.

  (** Rules for single nodes. *)
  Definition good_opt (o : option result) : Prop := match o with Some r => good r | None => True end.
  Lemma good_bind {A} (o : option A) f : (forall a, o = Some a -> good_opt (f a)) -> good_opt (obind o f).
  Proof. destruct o as [a|]; intros H; [apply H; reflexivity|exact I]. Qed.
  Lemma good_if (b : bool) x y : good_opt x -> good_opt y -> good_opt (if b then x else y).
  Proof. destruct b; auto. Qed.

  Definition good_rule (r : rule) : Prop := forall ctx e, within root e ->
    Forall good (rl_node r ctx e) /\ Forall good (rl_token r ctx e) /\
    match rl_root r ctx (root_elem root) with Done l => Forall good l | Crashed => True end.
  Lemma good_node_rule n f : (forall ctx e, within root e -> good_opt (f ctx e)) -> good_rule (node_rule n f).
  Proof.
    intros H ctx e W. specialize (H ctx e W). cbn [rl_node rl_token rl_root node_rule no_check no_root].
    destruct (f ctx e); repeat split; repeat constructor. exact H.
  Qed.

  (** Parts of an element of the tree. *)
  Lemma W_token k e x : within root e -> support_token k e = Some x -> within root x.
  Proof. apply within_support_token. Qed.
  Lemma within_nth_children k n e x : within root e -> nth_error (support_children k e) n = Some x -> within root x.
  Proof. intros W H. apply nth_error_In in H. exact (within_support_children root k e x W H). Qed.
  Lemma within_find_tokens p e x : within root e -> find p (child_tokens e) = Some x -> within root x.
  Proof. intros W H. apply find_some in H. exact (within_child_tokens root e x W (proj1 H)). Qed.
  Lemma take_while_in {A} (f : A -> bool) l x : In x (take_while f l) -> In x l.
  Proof.
    induction l as [|y l IH]; [intros []|]. cbn [take_while]. destruct (f y); [|intros []].
    intros [<-|H]; [left; reflexivity|right; auto].
  Qed.
  Lemma skip_while_in {A} (f : A -> bool) l x : In x (skip_while f l) -> In x l.
  Proof.
    induction l as [|y l IH]; [intros []|]. cbn [skip_while]. destruct (f y); [right; auto|auto].
  Qed.
  Lemma within_opening e x : within root e -> opening_quote e = Some x -> within root x.
  Proof.
    intros W H. apply find_some in H. destruct H as [H _]. apply take_while_in in H.
    exact (within_children root e x W H).
  Qed.
  Lemma within_closing e x : within root e -> closing_quote e = Some x -> within root x.
  Proof.
    intros W H. apply find_some in H. destruct H as [H _]. apply skip_while_in in H.
    exact (within_children root e x W H).
  Qed.
  Lemma within_name_operand e x : within root e -> operand_name e = Some x -> within root x.
  Proof.
    unfold operand_name, literal_name. intros W H. destruct (support_child TWIG_LITERAL_NAME e) as [n|] eqn:E; [|discriminate].
    cbn [obind] in H. exact (W_token _ _ _ (within_support_child root _ e n W E) H).
  Qed.

  Lemma good_ignore_file : good_rule rule_ignore_file_not_on_top.
  Proof.
    apply good_node_rule. intros ctx e W. apply good_bind. intros d _. apply good_bind. intros p _.
    apply good_if; [|exact I]. apply good_primary, good_create.
  Qed.
  Lemma good_whitespace : good_rule rule_whitespace_between_line_breaks.
  Proof.
    intros ctx e W. cbn [rl_node rl_token rl_root rule_whitespace_between_line_breaks no_check no_root].
    split; [constructor|]. split; [|constructor].
    match goal with |- Forall _ match ?x with _ => _ end => assert (H : good_opt x); [|destruct x; [constructor; [exact H|constructor]|constructor]] end.
    apply good_if; [exact I|]. apply good_bind. intros ws E1. apply good_if; [exact I|].
    apply good_bind. intros lb E2. apply good_if; [exact I|].
    apply good_add; [apply good_primary, good_create|]. apply fits_elem. exact (within_next_token root e ws W E1).
  Qed.

  (** The matches of the line-ending patterns lie on character boundaries. *)
  Lemma find_iter_boundaries r : forall s skip off pre, blen pre = off ->
    forall m, In m (find_iter r skip off s) -> fst m <= snd m /\ boundary (pre ++ s) (fst m) /\ boundary (pre ++ s) (snd m).
  Proof.
    induction s as [|c s IH]; intros skip off pre L m H; [destruct H|].
    assert (G : forall k, In m (find_iter r k (off + utf8_len c) s) ->
                fst m <= snd m /\ boundary (pre ++ c :: s) (fst m) /\ boundary (pre ++ c :: s) (snd m)).
    { intros k Hk. specialize (IH k (off + utf8_len c) (pre ++ [c])). rewrite <- app_assoc in IH.
      apply IH; [|exact Hk]. rewrite blen_app, L. cbn. lia. }
    cbn [find_iter] in H. destruct skip as [|k]; [|exact (G _ H)].
    destruct (rlong r (c :: s)) as [[|k]|]; [exact (G _ H)| |exact (G _ H)].
    destruct H as [<-|H]; [|exact (G _ H)]. cbn [fst snd]. split; [lia|]. split.
    - exists pre, (c :: s). split; [reflexivity|exact L].
    - exists (pre ++ firstn (S k) (c :: s)), (skipn (S k) (c :: s)).
      split; [rewrite <- app_assoc, firstn_skipn; reflexivity|]. rewrite blen_app, L. reflexivity.
  Qed.
  Lemma good_line_ending : good_rule rule_line_ending.
  Proof.
    intros ctx e W. cbn [rl_node rl_token rl_root rule_line_ending no_check no_root].
    split; [constructor|]. split; [|constructor]. destruct (negb _); [constructor|].
    apply Forall_map, Forall_forall. intros m Hm.
    destruct (find_iter_boundaries _ _ _ _ [] eq_refl m Hm) as (L & B1 & B2).
    apply good_add; [apply good_primary, good_create|]. repeat split; cbn [sg_start sg_end].
    - lia.
    - apply boundary_inside; assumption.
    - apply boundary_inside; assumption.
  Qed.

  (** Walks: an invariant kept by both handlers on the elements of the tree holds at the end. *)
  Lemma walk_invariant {S : Type} tokens (enter : S -> elem -> out (S * bool)) leave (P : S -> Prop) :
    (forall s e s' b, within root e -> P s -> enter s e = Done (s', b) -> P s') ->
    (forall s e s', within root e -> P s -> leave s e = Done s' -> P s') ->
    forall e s s', within root e -> P s -> walk_elem tokens enter leave e s = Done s' -> P s'.
  Proof.
    intros HE HL.
    apply (elem_induction (fun e => forall s s', within root e -> P s -> walk_elem tokens enter leave e s = Done s' -> P s')).
    intros e IH s s' W Ps H. rewrite walk_elem_unfold in H.
    destruct (enter s e) as [[s1 b]|] eqn:E1; [|discriminate].
    assert (P1 : P s1) by exact (HE _ _ _ _ W Ps E1).
    assert (K : exists s2, P s2 /\ leave s2 e = Done s').
    { destruct b; [exists s1; split; assumption|].
      assert (G : forall l s1 s2, incl l (children_with_tokens e) -> P s1 -> walk_list tokens enter leave l s1 = Done s2 -> P s2).
      { induction l as [|c l IHl]; intros sa sb I Pa Hl; cbn [walk_list] in Hl; [injection Hl as <-; exact Pa|].
        assert (Hc : In c (children_with_tokens e)) by (apply I; left; reflexivity).
        destruct (tokens || is_node (el_tree c)).
        - destruct (walk_elem tokens enter leave c sa) as [sc|] eqn:Ec; [|discriminate].
          apply (IHl sc sb); [intros z Hz; apply I; right; exact Hz| |exact Hl].
          apply (IH c Hc sa sc); [exact (within_children root e c W Hc)|exact Pa|exact Ec].
        - apply (IHl sa sb); [intros z Hz; apply I; right; exact Hz|exact Pa|exact Hl]. }
      destruct (walk_list tokens enter leave (children_with_tokens e) s1) as [s2|] eqn:E2; [|discriminate].
      exists s2. split; [exact (G _ _ _ (incl_refl _) P1 E2)|exact H]. }
    destruct K as (s2 & P2 & E3). exact (HL _ _ _ W P2 E3).
  Qed.

  Lemma good_handle ctx x level sub : within root x -> Forall good (handle_first_token_in_line ctx x level sub).
  Proof.
    intros W. unfold handle_first_token_in_line. destruct (kind_eqb (el_kind x) TK_WHITESPACE).
    - destruct (negb _); constructor; [|constructor]. apply good_add; [apply good_primary, good_create|]. apply fits_elem, W.
    - destruct (_ || _); constructor; [|constructor]. apply good_add; [apply good_primary, good_create|]. apply fits_at_start, W.
  Qed.
  Lemma good_indentation : good_rule rule_indentation.
  Proof.
    intros ctx e _. cbn [rl_node rl_token rl_root rule_indentation no_check]. split; [constructor|]. split; [constructor|].
    unfold indent_root. cbn [root_elem el_tree el_off el_path].
    destruct (walk true (indent_enter ctx) (indent_leave ctx) root 0 [] _) as [s|] eqn:H; [|exact I].
    change (walk_elem true (indent_enter ctx) (indent_leave ctx) (root_elem root) (mkIndent true 0 0 false false []) = Done s) in H.
    revert H. apply (walk_invariant true (indent_enter ctx) (indent_leave ctx) (fun s => Forall good (in_results s))).
    - intros s0 x s' b W P. unfold indent_enter. destruct (is_node (el_tree x)).
      + destruct (kind_eqb (el_kind x) ERROR); [intros [= <- <-]; exact P|].
        destruct (ignore_enter _ _ x) as [ign sk]. destruct sk; intros [= <- <-]; exact P.
      + destruct (kind_eqb (el_kind x) TK_LINE_BREAK); intros [= <- <-]; cbn [in_results]; [exact P|].
        apply Forall_app. split; [exact P|]. destruct (_ && _ && _); [apply good_handle; exact W|constructor].
    - intros s0 x s' W P. unfold indent_leave. destruct (is_node (el_tree x)); [|intros [= <-]; exact P].
      destruct (if indents _ x then _ else _); [|discriminate]. destruct (checked_sub _ _); [|discriminate].
      intros [= <-]. exact P.
    - apply within_root.
    - constructor.
  Qed.

  Lemma good_check_line_break n t new amount : (forall x, t = Some x -> within root x) ->
    Forall good (check_line_break n (t, new, amount)).
  Proof.
    intros W. unfold check_line_break. destruct t as [x|]; [|constructor]. specialize (W x eq_refl).
    destruct (kind_eqb (el_kind x) TK_LINE_BREAK).
    - destruct (negb _); constructor; [|constructor]. apply good_add; [apply good_primary, good_create|]. apply fits_elem, W.
    - constructor; [|constructor]. apply good_add; [apply good_primary, good_create|]. apply fits_at_start, W.
  Qed.
  Lemma good_block_line_breaks : good_rule rule_block_line_breaks.
  Proof.
    intros ctx e W. cbn [rl_node rl_token rl_root rule_block_line_breaks no_check no_root].
    split; [|split; constructor].
    assert (G : match check_block_line_breaks ctx e with Some l => Forall good l | None => True end).
    2: { destruct (check_block_line_breaks ctx e); [exact G|constructor]. }
    unfold check_block_line_breaks. destruct (cx_sensitive ctx); [exact I|].
    destruct (cast TWIG_BLOCK e) as [block|] eqn:C; cbn [obind]; [|exact I].
    apply (within_cast root) in C; [|exact W].
    match goal with |- match (if ?b then _ else _) with _ => _ end => destruct b end; [exact I|].
    destruct (starting_block block) as [st|] eqn:S; cbn [obind]; [|exact I].
    apply (within_support_child root) in S; [|exact C].
    destruct (ending_block block) as [en|] eqn:E; cbn [obind]; [|exact I].
    apply (within_support_child root) in E; [|exact C].
    cbn [flat_map]. rewrite app_nil_r. apply Forall_app. split; apply good_check_line_break; intros x Hx.
    - assert (Wp : within root match prev_sibling block with
                   | Some n => if is_comment_kind (el_kind n) then n else st | None => st end).
      { destruct (prev_sibling block) as [n|] eqn:P; [|exact S].
        destruct (is_comment_kind (el_kind n)); [exact (within_prev_sibling root _ _ C P)|exact S]. }
      exact (within_first_token root _ x Wp Hx).
    - destruct (last_token en) as [l|] eqn:L; cbn [obind] in Hx; [|discriminate].
      apply (within_last_token root) in L; [|exact E].
      destruct (next_token l) as [t|] eqn:T; cbn [obind] in Hx; [|discriminate].
      apply (within_next_token root) in T; [|exact L].
      match type of Hx with (if ?b then _ else _) = _ => destruct b end; [|discriminate]. injection Hx as <-. exact T.
  Qed.

  Lemma good_snake_case : good_rule rule_block_name_snake_case.
  Proof.
    apply good_node_rule. intros ctx e W. apply good_bind. intros s Es. apply (within_cast root) in Es; [|exact W].
    apply good_bind. intros n En. apply (W_token _ _ _ Es) in En. apply good_if; [|exact I]. cbn zeta. cbn [good_opt].
    destruct (try_make_snake_case _ _); [apply good_add|]; try apply good_primary; try apply good_create. apply fits_elem, En.
  Qed.
  Lemma good_kebab_case : good_rule rule_attribute_name_kebab_case.
  Proof.
    apply good_node_rule. intros ctx e W. apply good_bind. intros s Es. apply (within_cast root) in Es; [|exact W].
    apply good_bind. intros n En. apply (W_token _ _ _ Es) in En. apply good_bind. intros tag _.
    apply good_if; [exact I|]. apply good_if; [|exact I]. cbn zeta. cbn [good_opt].
    destruct (try_make_kebab_case _); [apply good_add|]; try apply good_primary; try apply good_create. apply fits_elem, En.
  Qed.
  Lemma good_logic n op shown new : good_rule (rule_logic n op shown new).
  Proof.
    apply good_node_rule. intros ctx e W. apply good_bind. intros b Eb. apply (within_cast root) in Eb; [|exact W].
    apply good_bind. intros o Eo. apply (within_find_tokens _ _ _ Eb) in Eo. apply good_if; [|exact I].
    apply good_add; [apply good_primary, good_create|apply fits_elem, Eo].
  Qed.
  Lemma good_check_quotes n q str inner : within root str -> (forall x, inner = Some x -> within root x) ->
    good_opt (check_quotes n q str inner).
  Proof.
    intros W Wi. unfold check_quotes. apply good_if; [|exact I]. destruct (range_trimmed_trivia str) as [a b]. cbn [good_opt].
    unfold change_quotes. destruct inner as [i|]; [|apply good_primary, good_create]. specialize (Wi i eq_refl).
    destruct (contains_char _ _); [apply good_primary, good_create|].
    assert (G : good match opening_quote str with
       | Some q0 => add_suggestion (el_start q0) (el_end q0) [quotation_char q] (txt "Try this quote instead"%string)
           (primary_note a b (txt "help: change the quotation to "%string ++ show_quotation q) (create_result n SHelp (txt "wrong quotation"%string)))
       | None => add_suggestion (el_start i) (el_start i) [quotation_char q] (txt "Try this quote instead"%string)
           (primary_note a b (txt "help: change the quotation to "%string ++ show_quotation q) (create_result n SHelp (txt "wrong quotation"%string)))
       end).
    { destruct (opening_quote str) as [o|] eqn:O; (apply good_add; [apply good_primary, good_create|]).
      - apply fits_elem, (within_opening str o W O).
      - apply fits_at_start, Wi. }
    destruct (closing_quote str) as [c|] eqn:C; (apply good_add; [exact G|]).
    - apply fits_elem, (within_closing str c W C).
    - apply fits_at_end, Wi.
  Qed.
  Lemma good_twig_quotation : good_rule rule_twig_string_quotation.
  Proof.
    apply good_node_rule. intros ctx e W. apply good_bind. intros s Es. apply (within_cast root) in Es; [|exact W].
    cbn zeta. apply good_if; [exact I|]. apply good_check_quotes; [exact Es|].
    intros x Hx. exact (within_support_child root _ _ _ Es Hx).
  Qed.
  Lemma good_html_quotation : good_rule rule_html_string_quotation.
  Proof.
    apply good_node_rule. intros ctx e W. apply good_bind. intros s Es. apply (within_cast root) in Es; [|exact W].
    apply good_check_quotes; [exact Es|]. intros x Hx. exact (within_support_child root _ _ _ Es Hx).
  Qed.
  Lemma good_hash_key : good_rule rule_hash_key_no_quotes.
  Proof.
    apply good_node_rule. intros ctx e W. apply good_bind. intros k Ek. apply (within_cast root) in Ek; [|exact W].
    apply good_bind. intros s Es. apply (within_support_child root) in Es; [|exact Ek].
    apply good_bind. intros i Ei. apply (within_support_child root) in Ei; [|exact Es].
    apply good_if; [|exact I]. destruct (range_trimmed_trivia s) as [a b]. cbn zeta. cbn [good_opt].
    destruct (opening_quote s) as [o|] eqn:O; destruct (closing_quote s) as [c|] eqn:C;
      repeat (apply good_add); try apply good_primary; try apply good_create;
      first [ apply fits_elem; first [exact (within_opening s o Es O)|exact (within_closing s c Es C)]
            | apply fits_at_start; exact Ei | apply fits_at_end; exact Ei ].
  Qed.
  Lemma good_extends : good_rule rule_prefer_shopware_extends.
  Proof.
    apply good_node_rule. intros ctx e W. apply good_bind. intros x Ex. apply (within_cast root) in Ex; [|exact W].
    apply good_bind. intros k Ek. apply (W_token _ _ _ Ex) in Ek.
    apply good_add; [apply good_primary, good_create|apply fits_elem, Ek].
  Qed.
  Lemma good_same_as n op shown new : good_rule (rule_same_as n op shown new).
  Proof.
    apply good_node_rule. intros ctx e W. apply good_bind. intros b Eb. apply (within_cast root) in Eb; [|exact W].
    apply good_bind. intros o Eo. apply (within_find_tokens _ _ _ Eb) in Eo. apply good_if; [exact I|]. cbn zeta. cbn [good_opt].
    destruct (rhs_expression b) as [r|] eqn:R; [|apply good_primary, good_create].
    apply (within_nth_children _ _ _ _ Eb) in R. apply good_add; [apply good_primary, good_create|]. apply fits_cover; assumption.
  Qed.
  Lemma good_duplicate name enter ctx : (forall s e s' b, enter s e = Done (s', b) -> Forall good (dp_results s) -> Forall good (dp_results s')) ->
    match duplicate_root name enter ctx (root_elem root) with Done l => Forall good l | Crashed => True end.
  Proof.
    intros HE. unfold duplicate_root. cbn [root_elem el_tree el_off el_path].
    destruct (walk false enter (duplicate_leave name) root 0 [] _) as [s|] eqn:H; [|exact I].
    change (walk_elem false enter (duplicate_leave name) (root_elem root) (mkDup [] false []) = Done s) in H.
    revert H. apply (walk_invariant false enter (duplicate_leave name) (fun s => Forall good (dp_results s))).
    - intros s0 x s' b W P H. exact (HE _ _ _ _ H P).
    - intros s0 x s' W P [= <-]. exact P.
    - apply within_root.
    - constructor.
  Qed.
  Lemma good_block_duplicate : good_rule rule_block_duplicate.
  Proof.
    intros ctx e _. cbn [rl_node rl_token rl_root rule_block_duplicate no_check]. split; [constructor|]. split; [constructor|].
    apply good_duplicate. intros s x s' b H P. unfold block_duplicate_enter in H.
    destruct (ignore_enter _ _ x) as [ign sk]. destruct sk; [injection H as <- <-; exact P|].
    destruct ign; injection H as <- <-; [exact P|]. unfold block_duplicate_visit.
    destruct (let? b := cast TWIG_BLOCK x in _) as [[a n]|]; [|exact P].
    destruct (let? b0 := lookup _ _ in _); cbn [dp_results]; [|exact P].
    apply Forall_app. split; [exact P|]. repeat constructor.
  Qed.
  Lemma good_duplicate_id : good_rule rule_duplicate_id.
  Proof.
    intros ctx e _. cbn [rl_node rl_token rl_root rule_duplicate_id no_check]. split; [constructor|]. split; [constructor|].
    apply good_duplicate. intros s x s' b H P. unfold duplicate_id_enter in H.
    destruct (kind_eqb (el_kind x) ERROR); [injection H as <- <-; exact P|].
    destruct (ignore_enter _ _ x) as [ign sk]. destruct sk; [injection H as <- <-; exact P|].
    destruct ign; injection H as <- <-; [exact P|]. unfold duplicate_id_visit.
    destruct (let? b := cast HTML_ATTRIBUTE x in _) as [[a n]|]; [|exact P].
    destruct (let? b0 := lookup _ _ in _); cbn [dp_results]; [|exact P].
    apply Forall_app. split; [exact P|]. repeat constructor.
  Qed.
  Lemma good_json : good_rule rule_json_encode_escape_js.
  Proof.
    apply good_node_rule. intros ctx e W. apply good_bind. intros f Ef. apply (within_cast root) in Ef; [|exact W].
    apply good_bind. intros r Er. apply (within_nth_children _ _ _ _ Ef) in Er.
    apply good_bind. intros t Et. apply (within_name_operand _ _ Er) in Et.
    apply good_if; [exact I|]. apply good_if; [exact I|].
    apply good_add; [apply good_primary, good_create|apply fits_elem, Et].
  Qed.
  Lemma good_naming : good_rule rule_variable_definition_naming.
  Proof.
    intros ctx e W. cbn [rl_node rl_token rl_root rule_variable_definition_naming no_check no_root].
    split; [|split; constructor]. destruct (negb _); [constructor|].
    assert (G : forall b, Forall good (check_literal_names e b)).
    { intros b. apply Forall_forall. intros r Hr. apply in_flat_map in Hr. destruct Hr as (n & _ & Hr).
      destruct (literal_name n); [|destruct Hr]. apply in_app_or in Hr.
      destruct Hr as [Hr|Hr]; match type of Hr with In _ (if ?b then _ else _) => destruct b end;
        destruct Hr as [<-|[]] || destruct Hr; constructor. }
    destruct (el_kind e); try apply G; constructor.
  Qed.
  Lemma good_valid_filter : good_rule rule_valid_filter.
  Proof.
    apply good_node_rule. intros ctx e W. apply good_bind. intros f _. apply good_bind. intros r _. apply good_bind. intros t _.
    apply good_if; [|exact I]. apply good_primary, good_create.
  Qed.
  Lemma good_valid_test : good_rule rule_valid_test.
  Proof.
    apply good_node_rule. intros ctx e W. apply good_bind. intros f _. apply good_bind. intros r _. apply good_if; [exact I|].
    apply good_bind. intros t _. apply good_bind. intros u _. apply good_if; [|exact I]. apply good_primary, good_create.
  Qed.
  Lemma good_valid_function : good_rule rule_valid_function.
  Proof.
    apply good_node_rule. intros ctx e W. apply good_bind. intros f _. apply good_if; [exact I|].
    apply good_bind. intros t _. apply good_bind. intros u _. apply good_if; [|exact I]. apply good_primary, good_create.
  Qed.
  Lemma good_definitions : Forall good_rule RULE_DEFINITIONS.
  Proof.
    unfold RULE_DEFINITIONS.
    apply Forall_cons; [exact good_ignore_file|].
    apply Forall_cons; [exact good_whitespace|].
    apply Forall_cons; [exact good_line_ending|].
    apply Forall_cons; [exact good_indentation|].
    apply Forall_cons; [exact good_block_line_breaks|].
    apply Forall_cons; [exact good_snake_case|].
    apply Forall_cons; [exact good_kebab_case|].
    apply Forall_cons; [exact (good_logic _ _ _ _)|].
    apply Forall_cons; [exact (good_logic _ _ _ _)|].
    apply Forall_cons; [exact good_twig_quotation|].
    apply Forall_cons; [exact good_html_quotation|].
    apply Forall_cons; [exact good_hash_key|].
    apply Forall_cons; [exact good_extends|].
    apply Forall_cons; [exact (good_same_as _ _ _ _)|].
    apply Forall_cons; [exact (good_same_as _ _ _ _)|].
    apply Forall_cons; [exact good_block_duplicate|].
    apply Forall_cons; [exact good_json|].
    apply Forall_cons; [exact good_duplicate_id|].
    apply Forall_cons; [exact good_naming|].
    apply Forall_cons; [exact good_valid_filter|].
    apply Forall_cons; [exact good_valid_test|].
    apply Forall_cons; [exact good_valid_function|].
    apply Forall_nil.
  Qed.

  (** Running good rules gives good results. *)
  Lemma good_run cf rules results : Forall good_rule rules -> run_rules cf rules root = Done results -> Forall good results.
  Proof.
    intros R H. unfold run_rules in H. destruct rules as [|r0 rs]; [injection H as <-; constructor|].
    remember (r0 :: rs) as rules. clear Heqrules.
    destruct (run_roots cf rules (root_elem root)) as [roots|] eqn:E; [|discriminate].
    assert (GR : Forall good roots).
    { clear H. revert roots E. induction R as [|r rules Hr R IH]; intros roots E; cbn [run_roots] in E; [injection E as <-; constructor|].
      destruct (Hr (mkCtx cf false) (root_elem root) (within_root root)) as (_ & _ & G).
      destruct (rl_root r (mkCtx cf false) (root_elem root)) as [a|]; [|discriminate].
      destruct (run_roots cf rules (root_elem root)) as [b|]; [|discriminate]. injection E as <-.
      apply Forall_app. split; [exact G|apply IH; reflexivity]. }
    destruct (run_walk cf rules root (mkRun [] false roots)) as [s|] eqn:Wk; [|discriminate]. injection H as <-.
    change (walk_elem true (run_enter cf rules) run_leave (root_elem root) (mkRun [] false roots) = Done s) in Wk.
    assert (GE : forall ign b x, within root x -> Forall good (run_element cf rules ign b x)).
    { intros ign b x W. apply Forall_forall. intros r Hr. apply in_flat_map in Hr. destruct Hr as (rl & Hrl & Hr).
      rewrite Forall_forall in R. destruct (R rl Hrl (mkCtx cf b) x W) as (G1 & G2 & _).
      destruct (mem_text (rl_name rl) ign); [destruct Hr|].
      rewrite Forall_forall in G1, G2. destruct (is_node (el_tree x)); [exact (G1 r Hr)|exact (G2 r Hr)]. }
    revert Wk. apply (walk_invariant true (run_enter cf rules) run_leave (fun s => Forall good (ru_results s))).
    - intros s0 x s' b W P. unfold run_enter.
      assert (K : forall names, (if is_node (el_tree x)
        then if kind_eqb (el_kind x) ERROR then Done (mkRun (ru_ignored s0 ++ names) (ru_sensitive s0) (ru_results s0), true)
             else Done (mkRun (ru_ignored s0 ++ names) (if is_sensitive x then true else ru_sensitive s0)
                     (ru_results s0 ++ run_element cf rules (ru_ignored s0 ++ names) (if is_sensitive x then true else ru_sensitive s0) x), false)
        else Done (mkRun (ru_ignored s0 ++ names) (ru_sensitive s0)
                     (ru_results s0 ++ run_element cf rules (ru_ignored s0 ++ names) (ru_sensitive s0) x), false)) = Done (s', b) ->
        Forall good (ru_results s')).
      { intros names. destruct (is_node (el_tree x)); [destruct (kind_eqb (el_kind x) ERROR)|]; intros [= <- <-]; cbn [ru_results];
          [exact P| |]; (apply Forall_app; split; [exact P|apply GE; exact W]). }
      destruct (directive_before x) as [[|n l]|]; [intros [= <- <-]; exact P|apply K|apply K].
    - intros s0 x s' W P. unfold run_leave. destruct (remove_all _ _); [|discriminate]. intros [= <-]. exact P.
    - apply within_root.
    - exact GR.
  Qed.
End Fits.

(** * C38 *)
Theorem C38_suggestions_fit_the_text : forall dbg src t errs cf rules results,
  parse_file dbg src = Done (t, errs) -> incl rules RULE_DEFINITIONS -> run_rules cf rules t = Done results ->
  forall name s, In (name, s) (rule_suggestions results) -> fits src s.
Proof.
  intros dbg src t errs cf rules results P I R name s H.
  assert (T : tree_text t = src).
  { unfold parse_file in P. destruct (parse_src dbg src) as [[t' e']| |] eqn:Q; try discriminate. injection P as -> ->.
    apply (C02_parse_lossless dbg src t errs Q). }
  assert (G : Forall (good t) results).
  { apply (good_run t cf rules); [|exact R]. apply Forall_forall. intros r Hr.
    pose proof (good_definitions t) as D. rewrite Forall_forall in D. apply D, I, Hr. }
  unfold rule_suggestions in H. apply in_flat_map in H. destruct H as (r & Hr & H). apply in_map_iff in H.
  destruct H as (s' & [= _ <-] & Hs). rewrite Forall_forall in G. specialize (G r Hr). unfold good in G.
  rewrite Forall_forall in G. rewrite <- T. exact (G s' Hs).
Qed.
(** So applying a single one never panics. *)
Theorem C38_single_suggestions_can_be_applied : forall dbg src t errs cf rules results,
  parse_file dbg src = Done (t, errs) -> incl rules RULE_DEFINITIONS -> run_rules cf rules t = Done results ->
  forall name s, In (name, s) (rule_suggestions results) ->
  exists a old b, src = a ++ old ++ b /\ blen a = sg_start s /\ apply_suggestions [s] src = Done (a ++ sg_text s ++ b).
Proof.
  intros dbg src t errs cf rules results P I R name s H.
  pose proof (C38_suggestions_fit_the_text _ _ _ _ _ _ _ P I R name s H) as (L & (a & x & E1 & L1) & (y & b & E2 & L2)).
  rewrite E1 in E2. destruct (blen_prefix a x y b E2) as (old & -> & ->); [lia|].
  exists a, old, b. split; [exact E1|]. split; [exact L1|]. cbn [apply_suggestions]. unfold replace_range.
  rewrite (proj2 (Nat.leb_le _ _) L). rewrite E1, <- L1, bsplit_app.
  replace (a ++ old ++ b) with ((a ++ old) ++ b) by (rewrite <- app_assoc; reflexivity). rewrite <- L2, bsplit_app. reflexivity.
Qed.

(** Several rules have suggestions for this text with two- and three-byte characters. *)
Example C38_case :
  match parse_file true ([228; 8364]%N ++ txt "{{ ""b"" && c }}"%string) with
  | Done (t, _) =>
    match run_rules default_config RULE_DEFINITIONS t with
    | Done rs => map (fun p => (sg_start (snd p), sg_end (snd p))) (rule_suggestions rs) = [(12, 14); (8, 9); (10, 11)]
    | Crashed => False
    end
  | Crashed => False
  end.
Proof. vm_compute. reflexivity. Qed.

Print Assumptions C38_suggestions_fit_the_text.
Print Assumptions C38_single_suggestions_can_be_applied.
