(** Every grammar function does the same on token lists that differ in the words they use only. *)
From Coq Require Import NArith String Bool Arith Lia Btauto List.
Import ListNotations.
From Verif Require Import Text Kind Regex Lexer LexerProofs ParserApi GrammarExpr GrammarTags GrammarHtml Machine
  TreeMachine Simulation Rename RenameSim.
Local Notation length := List.length (only parsing).
Local Open Scope list_scope.
Local Open Scope prog_scope.

(** * The sorts of words as the parser tests them *)
Lemma rfull_none : forall s, rfull REmpty s = false.
Proof. induction s; auto. Qed.
Lemma rfull_star cl : forall s, rfull (RStar (RClass cl)) s = forallb (in_class cl) s.
Proof.
  induction s as [|c s IH]; [reflexivity|]. cbn [rfull deriv forallb]. destruct (in_class cl c); cbn [sseq andb]; [exact IH|apply rfull_none].
Qed.
Lemma rfull_seq a b s : rfull (RSeq (RClass a) (RStar (RClass b))) s = match s with c :: s => in_class a c && forallb (in_class b) s | [] => false end.
Proof.
  destruct s as [|c s]; [reflexivity|]. cbn [rfull deriv nullable]. destruct (in_class a c); cbn [sseq andb]; [apply rfull_star|apply rfull_none].
Qed.
Lemma eqb_range c n : N.leb n c && N.leb c n = N.eqb c n.
Proof.
  destruct (N.eqb c n) eqn:E; [apply N.eqb_eq in E; subst; now rewrite N.leb_refl|]. apply N.eqb_neq in E.
  destruct (N.leb n c) eqn:A; [|reflexivity]. destruct (N.leb c n) eqn:B; [|reflexivity]. apply N.leb_le in A. apply N.leb_le in B. lia.
Qed.
Lemma forallb_same (f g : N -> bool) s : (forall c, f c = g c) -> forallb f s = forallb g s.
Proof. intros H. induction s as [|c s IH]; [reflexivity|]. cbn. now rewrite H, IH. Qed.
Ltac class_tac := let x := fresh "x" in intros x; cbv [in_class in_range existsb cl_letter cl_word fst snd word_char letter digit twig_start]; rewrite ?eqb_range, ?orb_false_r; rewrite ?orb_assoc; btauto.
Lemma class_letter : forall c, in_class cl_letter c = letter c.
Proof. class_tac. Qed.
Lemma class_word : forall c, in_class cl_word c = word_char c.
Proof. class_tac. Qed.
Lemma name_word w : rfull TWIG_NAME_REGEX w = twig_word w.
Proof.
  unfold TWIG_NAME_REGEX. rewrite rfull_seq. destruct w as [|c s]; [reflexivity|]. cbn [twig_word]. f_equal; [revert c; class_tac|].
  apply forallb_same. class_tac.
Qed.
Lemma tag_word w : rfull HTML_TAG_NAME_REGEX w = element_word w.
Proof.
  unfold HTML_TAG_NAME_REGEX. rewrite rfull_seq. destruct w as [|c s]; [reflexivity|]. cbn [element_word]. f_equal; [apply class_letter|].
  apply forallb_same. class_tac.
Qed.
Lemma letter_no_mark c : letter c = true -> existsb (N.eqb c) [58; 64; 35; 95; 36]%N = false.
Proof.
  unfold letter. intros H. cbn [existsb]. rewrite !orb_false_r.
  assert (X : forall n, (n = 58 \/ n = 64 \/ n = 35 \/ n = 95 \/ n = 36)%N -> N.eqb c n = false).
  { intros n Hn. apply N.eqb_neq. intros ->. apply orb_true_iff in H as [H|H]; apply andb_true_iff in H as [H1 H2]; apply N.leb_le in H1; apply N.leb_le in H2; lia. }
  rewrite !X by auto 10. reflexivity.
Qed.
Lemma attr_word w : rfull HTML_ATTRIBUTE_NAME_REGEX w = attribute_word w.
Proof.
  unfold HTML_ATTRIBUTE_NAME_REGEX. destruct w as [|c s]; [reflexivity|]. cbn [rfull deriv nullable andb orb attribute_word].
  rewrite class_letter. assert (M : in_class [(58, 58); (64, 64); (35, 35); (95, 95); (36, 36)]%N c = existsb (N.eqb c) [58; 64; 35; 95; 36]%N) by (revert c; class_tac).
  rewrite M. destruct (letter c) eqn:L.
  - rewrite (letter_no_mark c L). cbn [sseq salt andb orb]. rewrite rfull_star, orb_false_r. apply forallb_same, class_word.
  - destruct (existsb (N.eqb c) [58; 64; 35; 95; 36]%N); cbn [sseq salt andb orb]; [|apply rfull_none]. rewrite rfull_seq. destruct s as [|d s]; [reflexivity|].
    rewrite class_letter. f_equal. apply forallb_same, class_word.
Qed.
Lemma lower_same w : map to_lower_ascii w = map lower w.
Proof. reflexivity. Qed.
Lemma special_parts w : existsb (text_eqb (map to_lower_ascii w)) HTML_VOID_ELEMENTS = true \/ existsb (text_eqb (map to_lower_ascii w)) HTML_RAW_TEXT_ELEMENTS = true ->
  special_element w.
Proof.
  assert (E : special_elements = HTML_VOID_ELEMENTS ++ HTML_RAW_TEXT_ELEMENTS) by reflexivity.
  unfold special_element. rewrite lower_same, E. intros [H|H]; apply existsb_exists in H as (x & Hx & Q); apply text_eqb_eq in Q; rewrite Q; apply in_or_app; auto.
Qed.
Lemma special_void w : ~ special_element w -> existsb (text_eqb (map to_lower_ascii w)) HTML_VOID_ELEMENTS = false.
Proof. intros H. destruct (existsb _ _) eqn:E; [|reflexivity]. destruct H. apply special_parts. now left. Qed.
Lemma special_raw w : ~ special_element w -> existsb (text_eqb (map to_lower_ascii w)) HTML_RAW_TEXT_ELEMENTS = false.
Proof. intros H. destruct (existsb _ _) eqn:E; [|reflexivity]. destruct H. apply special_parts. now right. Qed.

Lemma sort_name w w' : same_sort w w' -> rfull TWIG_NAME_REGEX w' = rfull TWIG_NAME_REGEX w.
Proof. rewrite !name_word. intros [->|H]; [reflexivity|]. symmetry. tauto. Qed.
Lemma sort_tag w w' : same_sort w w' -> rfull HTML_TAG_NAME_REGEX w' = rfull HTML_TAG_NAME_REGEX w.
Proof. rewrite !tag_word. intros [->|H]; [reflexivity|]. symmetry. tauto. Qed.
Lemma sort_attr w w' : same_sort w w' -> rfull HTML_ATTRIBUTE_NAME_REGEX w' = rfull HTML_ATTRIBUTE_NAME_REGEX w.
Proof. rewrite !attr_word. intros [->|H]; [reflexivity|]. symmetry. tauto. Qed.
Lemma sort_colon w w' : same_sort w w' -> rfull HTML_ATTRIBUTE_NAME_REGEX (txt ":"%string ++ w') = rfull HTML_ATTRIBUTE_NAME_REGEX (txt ":"%string ++ w).
Proof. rewrite !attr_word. change (txt ":"%string) with [58%N]. cbn [app]. intros [->|H]; [reflexivity|]. symmetry. tauto. Qed.
Lemma sort_void w w' : same_sort w w' ->
  existsb (text_eqb (map to_lower_ascii w')) HTML_VOID_ELEMENTS = existsb (text_eqb (map to_lower_ascii w)) HTML_VOID_ELEMENTS.
Proof. intros [->|H]; [reflexivity|]. rewrite !special_void by tauto. reflexivity. Qed.
Lemma sort_raw w w' : same_sort w w' ->
  existsb (text_eqb (map to_lower_ascii w')) HTML_RAW_TEXT_ELEMENTS = existsb (text_eqb (map to_lower_ascii w)) HTML_RAW_TEXT_ELEMENTS.
Proof. intros [->|H]; [reflexivity|]. rewrite !special_raw by tauto. reflexivity. Qed.


Create HintDb ren.
#[local] Hint Resolve lookr_at lookr_kind lookr_at_set lookr_at_end lookr_following
  lookr_next_kind lookr_twig_tag lookr_termination_tag lookr_less_than_non_word lookr_html_text_end
  lookr_orb lookr_andb lookr_negb lookr_peek : ren.

Ltac crush_tok :=
  repeat match goal with
  | H : opt_tok _ _ ?o ?o' |- _ => destruct o, o'; cbn [opt_tok] in H; try contradiction
  end;
  cbn [option_map];
  repeat match goal with
  | H : tokR _ _ ?t ?t' |- context [tk_kind ?t'] =>
      is_var t'; tryif constr_eq t t' then fail else rewrite <- (proj1 H)
  end.
(** One step; [base] proves the parts that have a lemma. *)
Ltac ss_with base :=
  lazymatch goal with
  | |- sim _ _ _ _ (Ret _) (Ret _) _ => apply sim_ret; cbn; auto; congruence
  | |- sim _ _ _ _ (if ?b then _ else _) _ _ => destruct b
  | |- sim _ _ _ _ (match ?x with _ => _ end) _ _ => destruct x
  | |- sim _ _ _ _ (when ?b _) (when ?b _) _ => unfold when
  | |- sim _ _ _ _ (look _) (look _) _ => apply sim_look; [solve [auto with ren nocore]|auto 6 with ren nocore]
  | |- sim _ _ _ _ (fail _) (fail _) _ => apply sim_fail
  | |- sim _ ?U ?U' _ (@Iter _ _ (option token) _ _ _) _ _ => eapply sim_iter with (R1 := (opt_tok U U')); [intros ? [] ?|intros; crush_tok]
  | |- sim _ _ _ _ (Iter _ _ _) _ _ => eapply sim_iter with (R1 := eq); [intros ? ? ?|intros; subst]
  | |- sim _ _ _ _ (parse_many_st _ _ _) (parse_many_st _ _ _) _ => apply sim_many; [solve [auto with ren nocore]|intros ? ? ?|intros ? ? ?]
  | |- sim _ _ _ _ (add_error_at _ _) (add_error_at _ _) _ => apply sim_add_error_at; [left; reflexivity|assumption]
  | |- sim _ ?U ?U' _ (bind ?p _) (bind _ _) _ =>
      first [ eapply sim_bind with (R1 := eq); [solve [base]|intros ? ? <-; crush_tok]
            | eapply sim_bind with (R1 := (tokR U U')); [solve [base]|intros; crush_tok]
            | eapply sim_bind with (R1 := (opt_tok U U')); [solve [base]|intros; crush_tok]
            | lazymatch type of p with
              | prog token => eapply sim_bind with (R1 := (tokR U U'))
              | prog (option token) => eapply sim_bind with (R1 := (opt_tok U U'))
              | _ => eapply sim_bind with (R1 := eq)
              end; [|intros; subst; crush_tok] ]
  | |- sim _ _ _ _ _ _ _ => solve [base]
  end.

Section Api.
  Context (dbg : bool) (T T' : list token) (HT : T <> []) (REN : renaming T T').
  Notation sim := (sim dbg T T').

  Hint Extern 1 (RenameSim.sim _ _ _ _ bump bump _) => apply (sim_bump_as dbg T T' REN) : ren.
  Hint Extern 1 (RenameSim.sim _ _ _ _ (bump_site _) (bump_site _) _) => apply (sim_bump_as dbg T T' REN) : ren.
  Hint Extern 1 (RenameSim.sim _ _ _ _ (bump_as _) (bump_as _) _) => apply (sim_bump_as dbg T T' REN) : ren.
  Hint Extern 1 (RenameSim.sim _ _ _ _ (debug_assert _) (debug_assert _) _) => apply (sim_dassert dbg T T' REN); auto 6 with ren nocore : ren.
  Hint Extern 1 (RenameSim.sim _ _ _ _ (debug_assert_site _ _) (debug_assert_site _ _) _) => apply (sim_dassert dbg T T' REN); auto 6 with ren nocore : ren.
  Hint Extern 1 (RenameSim.sim _ _ _ _ (look _) (look _) _) => apply (sim_look dbg T T' REN); auto 6 with ren nocore : ren.
  Hint Extern 1 (RenameSim.sim _ _ _ _ (at_ _) (at_ _) _) => apply (sim_look dbg T T' REN); apply lookr_at; exact REN : ren.
  Hint Extern 1 (RenameSim.sim _ _ _ _ (at_set _) (at_set _) _) => apply (sim_look dbg T T' REN); apply lookr_at_set; exact REN : ren.
  Hint Extern 1 (RenameSim.sim _ _ _ _ (at_following _) (at_following _) _) => apply (sim_look dbg T T' REN); apply lookr_following; exact REN : ren.
  Hint Extern 1 (RenameSim.sim _ _ _ _ (at_twig_tag _) (at_twig_tag _) _) => apply (sim_look dbg T T' REN); apply lookr_twig_tag; exact REN : ren.
  Hint Extern 1 (RenameSim.sim _ _ _ _ at_twig_termination_tag at_twig_termination_tag _) => apply (sim_look dbg T T' REN); apply lookr_termination_tag; exact REN : ren.
  Hint Extern 1 (RenameSim.sim _ _ _ _ at_twig_block_open at_twig_block_open _) => apply (sim_look dbg T T' REN); apply lookr_at_set; exact REN : ren.
  Hint Extern 1 (RenameSim.sim _ _ _ _ at_twig_block_close at_twig_block_close _) => apply (sim_look dbg T T' REN); apply lookr_at_set; exact REN : ren.
  Hint Extern 1 (RenameSim.sim _ _ _ _ at_twig_var_open at_twig_var_open _) => apply (sim_look dbg T T' REN); apply lookr_at_set; exact REN : ren.
  Hint Extern 1 (RenameSim.sim _ _ _ _ at_twig_comment_open at_twig_comment_open _) => apply (sim_look dbg T T' REN); apply lookr_at_set; exact REN : ren.
  Hint Extern 1 (RenameSim.sim _ _ _ _ at_end at_end _) => apply (sim_look dbg T T' REN); apply lookr_at_end : ren.
  Hint Extern 1 (RenameSim.sim _ _ _ _ peek_token peek_token _) => apply (sim_look dbg T T' REN); apply lookr_peek; exact REN : ren.
  Hint Resolve sim_trivia sim_start sim_complete sim_precede sim_add_error : ren.
  Hint Extern 1 (RenameSim.sim _ _ _ _ (add_error_t _) (add_error_t _) _) => apply (sim_add_error_t dbg T T' HT REN); left; reflexivity : ren.
  Hint Resolve HT REN : ren.

  Ltac ss := ss_with ltac:(auto with ren nocore).
  Ltac sgo := repeat ss.

  Lemma y_recover_expect : forall n ex set, sim n (recover_expect ex set) (recover_expect ex set) (opt_tok T T').
  Proof.
    intros n ex set. unfold recover_expect. sgo.
  Qed.
  Hint Resolve y_recover_expect : ren.

  Lemma y_recover : forall n set, sim n (recover set) (recover set) eq.
  Proof. intros n set. unfold recover. sgo.
  Qed.

  Lemma y_display : forall n k, sim n (display k) (display k) eq.
  Proof. intros n k. unfold display. sgo.
  Qed.
  Hint Resolve y_recover y_display : ren.

  Lemma y_expect : forall n k set, sim n (expect k set) (expect k set) (opt_tok T T').
  Proof. intros n k set. unfold expect. sgo.
  Qed.

  Lemma y_display_or : forall n ks, sim n (display_or ks) (display_or ks) eq.
  Proof.
    intros n ks. induction ks as [|k ks IH]; [now apply sim_ret|]. cbn [display_or]. destruct ks; [ss|].
    ss. eapply sim_bind with (R1 := eq); [exact IH|]. intros ? ? <-. ss.
  Qed.
  Hint Resolve y_expect y_display_or : ren.

  Lemma y_expect_any : forall n ks set, sim n (expect_any ks set) (expect_any ks set) (opt_tok T T').
  Proof. intros n ks set. unfold expect_any. sgo.
  Qed.

  Lemma y_many : forall n (early early' : prog bool) (child child' : prog unit),
    (forall m, m <= n -> sim m early early' eq) -> (forall m, m <= n -> sim m child child' eq) ->
    sim n (parse_many early child) (parse_many early' child') eq.
  Proof.
    intros n early early' child child' He Hc. unfold parse_many. apply sim_many; auto.
    intros m x Hm. eapply sim_bind with (R1 := eq); [auto|]. intros ? ? <-. now apply sim_ret.
  Qed.
End Api.


Section Grammar.
  Context (dbg : bool) (T T' : list token) (HT : T <> []) (REN : renaming T T').
  Notation sim := (sim dbg T T').
  Context (N : nat) (HC : forall m c, m < N -> sim m (body c) (body c) eq).

  Hint Extern 1 (RenameSim.sim _ _ _ _ bump bump _) => apply (sim_bump_as dbg T T' REN) : ren.
  Hint Extern 1 (RenameSim.sim _ _ _ _ (bump_site _) (bump_site _) _) => apply (sim_bump_as dbg T T' REN) : ren.
  Hint Extern 1 (RenameSim.sim _ _ _ _ (bump_as _) (bump_as _) _) => apply (sim_bump_as dbg T T' REN) : ren.
  Hint Extern 1 (RenameSim.sim _ _ _ _ (debug_assert _) (debug_assert _) _) => apply (sim_dassert dbg T T' REN); auto 6 with ren nocore : ren.
  Hint Extern 1 (RenameSim.sim _ _ _ _ (debug_assert_site _ _) (debug_assert_site _ _) _) => apply (sim_dassert dbg T T' REN); auto 6 with ren nocore : ren.
  Hint Extern 1 (RenameSim.sim _ _ _ _ (look _) (look _) _) => apply (sim_look dbg T T' REN); auto 6 with ren nocore : ren.
  Hint Extern 1 (RenameSim.sim _ _ _ _ (at_ _) (at_ _) _) => apply (sim_look dbg T T' REN); apply lookr_at; exact REN : ren.
  Hint Extern 1 (RenameSim.sim _ _ _ _ (at_set _) (at_set _) _) => apply (sim_look dbg T T' REN); apply lookr_at_set; exact REN : ren.
  Hint Extern 1 (RenameSim.sim _ _ _ _ (at_following _) (at_following _) _) => apply (sim_look dbg T T' REN); apply lookr_following; exact REN : ren.
  Hint Extern 1 (RenameSim.sim _ _ _ _ (at_twig_tag _) (at_twig_tag _) _) => apply (sim_look dbg T T' REN); apply lookr_twig_tag; exact REN : ren.
  Hint Extern 1 (RenameSim.sim _ _ _ _ at_twig_termination_tag at_twig_termination_tag _) => apply (sim_look dbg T T' REN); apply lookr_termination_tag; exact REN : ren.
  Hint Extern 1 (RenameSim.sim _ _ _ _ at_twig_block_open at_twig_block_open _) => apply (sim_look dbg T T' REN); apply lookr_at_set; exact REN : ren.
  Hint Extern 1 (RenameSim.sim _ _ _ _ at_twig_block_close at_twig_block_close _) => apply (sim_look dbg T T' REN); apply lookr_at_set; exact REN : ren.
  Hint Extern 1 (RenameSim.sim _ _ _ _ at_twig_var_open at_twig_var_open _) => apply (sim_look dbg T T' REN); apply lookr_at_set; exact REN : ren.
  Hint Extern 1 (RenameSim.sim _ _ _ _ at_twig_comment_open at_twig_comment_open _) => apply (sim_look dbg T T' REN); apply lookr_at_set; exact REN : ren.
  Hint Extern 1 (RenameSim.sim _ _ _ _ at_end at_end _) => apply (sim_look dbg T T' REN); apply lookr_at_end : ren.
  Hint Extern 1 (RenameSim.sim _ _ _ _ peek_token peek_token _) => apply (sim_look dbg T T' REN); apply lookr_peek; exact REN : ren.
  Hint Resolve sim_trivia sim_start sim_complete sim_precede sim_add_error : ren.
  Hint Extern 1 (RenameSim.sim _ _ _ _ (add_error_t _) (add_error_t _) _) => apply (sim_add_error_t dbg T T' HT REN); left; reflexivity : ren.
  Hint Resolve HT REN : ren.

  Hint Resolve y_recover_expect y_recover y_expect y_expect_any y_display y_display_or : ren.
  Hint Extern 2 (_ <= _) => lia : ren.
  Lemma y_call : forall (A : Set) n c (k k' : option nat -> prog A) (R : A -> A -> Prop), n <= N ->
    (forall a, sim n (k a) (k' a) R) -> sim n (Call c k) (Call c k') R.
  Proof. intros A n c k k' R Hn Hk. apply sim_call; [|exact Hk]. intros. apply HC. lia.
  Qed.
  Ltac sx :=
    lazymatch goal with
    | |- RenameSim.sim _ _ _ _ (Call _ _) (Call _ _) _ => apply y_call; [lia|intros ?]
    | |- RenameSim.sim _ _ _ _ (parse_many _ _) (parse_many _ _) _ => apply y_many; [assumption..|intros ? ?|intros ? ?]
    | |- _ => idtac
    end.
  Ltac ss := ss_with ltac:(auto with ren nocore).
  Ltac sgo := repeat (progress sx || ss).


  Lemma y_parse_twig_expression_binding_power : forall n (bp : nat), n <= N ->
    sim n (parse_twig_expression_binding_power bp) (parse_twig_expression_binding_power bp) eq.
  Proof. intros. unfold parse_twig_expression_binding_power. sgo.
  Qed.
  Hint Resolve y_parse_twig_expression_binding_power : ren.
  Lemma y_parse_twig_expression : forall n, n <= N ->
    sim n (parse_twig_expression) (parse_twig_expression) eq.
  Proof. intros. unfold parse_twig_expression. sgo.
  Qed.
  Hint Resolve y_parse_twig_expression : ren.
  Lemma tok_sort t t' : tokR T T' t t' -> same_sort (tk_text t) (tk_text t').
  Proof. intros H. apply (replaced_sort T T' REN). now apply tok_replaced. Qed.
  Lemma y_parse_twig_name : forall n, n <= N ->
    sim n (parse_twig_name) (parse_twig_name) eq.
  Proof.
    intros. unfold parse_twig_name. ss. ss; [rewrite (sort_name _ _ (tok_sort _ _ H0)); sgo|sgo].
  Qed.
  Hint Resolve y_parse_twig_name : ren.
  Lemma y_parse_twig_number : forall n, n <= N ->
    sim n (parse_twig_number) (parse_twig_number) eq.
  Proof. intros. unfold parse_twig_number. sgo.
  Qed.
  Hint Resolve y_parse_twig_number : ren.
  Lemma y_parse_twig_null : forall n, n <= N ->
    sim n (parse_twig_null) (parse_twig_null) eq.
  Proof. intros. unfold parse_twig_null. sgo.
  Qed.
  Hint Resolve y_parse_twig_null : ren.
  Lemma y_parse_twig_boolean : forall n, n <= N ->
    sim n (parse_twig_boolean) (parse_twig_boolean) eq.
  Proof. intros. unfold parse_twig_boolean. sgo.
  Qed.
  Hint Resolve y_parse_twig_boolean : ren.
  Lemma y_twig_string_child : forall n (quote_kind : kind) (interpolation_allowed : bool), n <= N ->
    sim n (twig_string_child quote_kind interpolation_allowed) (twig_string_child quote_kind interpolation_allowed) eq.
  Proof. intros. unfold twig_string_child. sgo.
  Qed.
  Hint Resolve y_twig_string_child : ren.
  Lemma y_parse_twig_string : forall n (interpolation_allowed : bool), n <= N ->
    sim n (parse_twig_string interpolation_allowed) (parse_twig_string interpolation_allowed) eq.
  Proof. intros. unfold parse_twig_string. sgo.
  Qed.
  Hint Resolve y_parse_twig_string : ren.
  Lemma y_parse_twig_array : forall n, n <= N ->
    sim n (parse_twig_array) (parse_twig_array) eq.
  Proof. intros. unfold parse_twig_array. sgo.
  Qed.
  Hint Resolve y_parse_twig_array : ren.
  Lemma y_parse_twig_hash_key : forall n, n <= N ->
    sim n (parse_twig_hash_key) (parse_twig_hash_key) eq.
  Proof.
    intros. unfold parse_twig_hash_key. ss. ss; [sgo|]. ss. ss; [sgo|]. ss. ss; [sgo|].
    ss; [rewrite (sort_name _ _ (tok_sort _ _ H0)); sgo|sgo].
  Qed.
  Hint Resolve y_parse_twig_hash_key : ren.
  Lemma y_parse_twig_hash_pair : forall n, n <= N ->
    sim n (parse_twig_hash_pair) (parse_twig_hash_pair) eq.
  Proof. intros. unfold parse_twig_hash_pair. sgo.
  Qed.
  Hint Resolve y_parse_twig_hash_pair : ren.
  Lemma y_parse_twig_hash : forall n, n <= N ->
    sim n (parse_twig_hash) (parse_twig_hash) eq.
  Proof. intros. unfold parse_twig_hash. sgo.
  Qed.
  Hint Resolve y_parse_twig_hash : ren.
  Lemma y_parse_twig_function_argument : forall n, n <= N ->
    sim n (parse_twig_function_argument) (parse_twig_function_argument) eq.
  Proof. intros. unfold parse_twig_function_argument. sgo.
  Qed.
  Hint Resolve y_parse_twig_function_argument : ren.
  Lemma y_parse_arguments : forall n (closing : list kind), n <= N ->
    sim n (parse_arguments closing) (parse_arguments closing) eq.
  Proof. intros. unfold parse_arguments. sgo.
  Qed.
  Hint Resolve y_parse_arguments : ren.
  Lemma y_parse_twig_filter : forall n (last_node : nat), n <= N ->
    sim n (parse_twig_filter last_node) (parse_twig_filter last_node) eq.
  Proof. intros. unfold parse_twig_filter. sgo.
  Qed.
  Hint Resolve y_parse_twig_filter : ren.
  Lemma y_parse_twig_indexer : forall n (last_node : nat), n <= N ->
    sim n (parse_twig_indexer last_node) (parse_twig_indexer last_node) eq.
  Proof. intros. unfold parse_twig_indexer. sgo.
  Qed.
  Hint Resolve y_parse_twig_indexer : ren.
  Lemma y_parse_twig_function : forall n (last_node : nat), n <= N ->
    sim n (parse_twig_function last_node) (parse_twig_function last_node) eq.
  Proof. intros. unfold parse_twig_function. sgo.
  Qed.
  Hint Resolve y_parse_twig_function : ren.
  Lemma y_parse_twig_accessor : forall n (last_node : nat), n <= N ->
    sim n (parse_twig_accessor last_node) (parse_twig_accessor last_node) eq.
  Proof. intros. unfold parse_twig_accessor. sgo.
  Qed.
  Hint Resolve y_parse_twig_accessor : ren.
  Lemma y_parse_twig_test_implicit_argument : forall n (last_node : nat), n <= N ->
    sim n (parse_twig_test_implicit_argument last_node) (parse_twig_test_implicit_argument last_node) eq.
  Proof. intros. unfold parse_twig_test_implicit_argument. sgo.
  Qed.
  Hint Resolve y_parse_twig_test_implicit_argument : ren.
  Lemma y_parse_twig_arrow_function : forall n (last_node : nat), n <= N ->
    sim n (parse_twig_arrow_function last_node) (parse_twig_arrow_function last_node) eq.
  Proof. intros. unfold parse_twig_arrow_function. sgo.
  Qed.
  Hint Resolve y_parse_twig_arrow_function : ren.
  Lemma y_parse_postfix_operators : forall n (node : nat), n <= N ->
    sim n (parse_postfix_operators node) (parse_postfix_operators node) eq.
  Proof. intros. unfold parse_postfix_operators. sgo.
  Qed.
  Hint Resolve y_parse_postfix_operators : ren.
  Lemma y_parse_twig_literal : forall n, n <= N ->
    sim n (parse_twig_literal) (parse_twig_literal) eq.
  Proof. intros. unfold parse_twig_literal. sgo.
  Qed.
  Hint Resolve y_parse_twig_literal : ren.
  Lemma y_parse_conditional_expression : forall n (lhs : nat), n <= N ->
    sim n (parse_conditional_expression lhs) (parse_conditional_expression lhs) eq.
  Proof. intros. unfold parse_conditional_expression. sgo.
  Qed.
  Hint Resolve y_parse_conditional_expression : ren.
  Lemma y_binary_loop : forall n (minimum_binding_power : nat) (lhs : nat), n <= N ->
    sim n (binary_loop minimum_binding_power lhs) (binary_loop minimum_binding_power lhs) eq.
  Proof. intros. unfold binary_loop. sgo.
  Qed.
  Hint Resolve y_binary_loop : ren.
  Lemma y_parse_twig_expression_binding_power_rhs : forall n (minimum_binding_power : nat) (lhs : nat), n <= N ->
    sim n (parse_twig_expression_binding_power_rhs minimum_binding_power lhs) (parse_twig_expression_binding_power_rhs minimum_binding_power lhs) eq.
  Proof. intros. unfold parse_twig_expression_binding_power_rhs. sgo.
  Qed.
  Hint Resolve y_parse_twig_expression_binding_power_rhs : ren.
  Lemma y_parse_paren_expression : forall n, n <= N ->
    sim n (parse_paren_expression) (parse_paren_expression) eq.
  Proof. intros. unfold parse_paren_expression. sgo.
  Qed.
  Hint Resolve y_parse_paren_expression : ren.
  Lemma y_parse_paren_arrow_function : forall n (m : nat), n <= N ->
    sim n (parse_paren_arrow_function m) (parse_paren_arrow_function m) eq.
  Proof. intros. unfold parse_paren_arrow_function. sgo.
  Qed.
  Hint Resolve y_parse_paren_arrow_function : ren.
  Lemma y_parse_unary_expression : forall n, n <= N ->
    sim n (parse_unary_expression) (parse_unary_expression) eq.
  Proof. intros. unfold parse_unary_expression. sgo.
  Qed.
  Hint Resolve y_parse_unary_expression : ren.
  Lemma y_parse_twig_expression_lhs : forall n, n <= N ->
    sim n (parse_twig_expression_lhs) (parse_twig_expression_lhs) eq.
  Proof. intros. unfold parse_twig_expression_lhs. sgo.
  Qed.
  Hint Resolve y_parse_twig_expression_lhs : ren.
  Lemma y_body_expression : forall n (minimum_binding_power : nat), n <= N ->
    sim n (body_expression minimum_binding_power) (body_expression minimum_binding_power) eq.
  Proof. intros. unfold body_expression. sgo.
  Qed.
  Hint Resolve y_body_expression : ren.
  Lemma y_call_child : forall n (f : pfun), n <= N ->
    sim n (call_child f) (call_child f) eq.
  Proof. intros. unfold call_child. sgo.
  Qed.
  Hint Resolve y_call_child : ren.
  Lemma y_parse_body : forall n early early' (child : pfun), n <= N -> (forall m, m <= n -> sim m early early' eq) -> sim n (parse_body early child) (parse_body early' child) eq.
  Proof. intros. unfold parse_body. sgo.
  Qed.
  Hint Resolve y_parse_body : ren.

  Ltac sx2 :=
    lazymatch goal with
    | |- RenameSim.sim _ _ _ _ (parse_body _ _) (parse_body _ _) _ => apply y_parse_body; [lia|intros ? ?]
    | |- _ => sx
    end.
  Ltac sgo ::= repeat (progress sx2 || ss).
  Lemma y_parse_ending : forall n (kw : kind) (r1 r2 r3 : list kind) (node : kind), n <= N ->
    sim n (parse_ending kw r1 r2 r3 node) (parse_ending kw r1 r2 r3 node) eq.
  Proof. intros. unfold parse_ending. sgo.
  Qed.
  Hint Resolve y_parse_ending : ren.
  Lemma y_expression_or : forall n (msg : string) (set : list kind), n <= N ->
    sim n (expression_or msg set) (expression_or msg set) eq.
  Proof. intros. unfold expression_or. sgo.
  Qed.
  Hint Resolve y_expression_or : ren.
  Lemma y_name_or : forall n (msg : string) (set : list kind), n <= N ->
    sim n (name_or msg set) (name_or msg set) eq.
  Proof. intros. unfold name_or. sgo.
  Qed.
  Hint Resolve y_name_or : ren.
  Lemma y_string_or : forall n (msg : string) (set : list kind), n <= N ->
    sim n (string_or msg set) (string_or msg set) eq.
  Proof. intros. unfold string_or. sgo.
  Qed.
  Hint Resolve y_string_or : ren.
  Lemma y_opt_bump : forall n (k : kind), n <= N ->
    sim n (opt_bump k) (opt_bump k) eq.
  Proof. intros. unfold opt_bump. sgo.
  Qed.
  Hint Resolve y_opt_bump : ren.
  Lemma y_parse_twig_cache : forall n (outer : nat) (child : pfun), n <= N ->
    sim n (parse_twig_cache outer child) (parse_twig_cache outer child) eq.
  Proof. intros. unfold parse_twig_cache. sgo.
  Qed.
  Hint Resolve y_parse_twig_cache : ren.
  Lemma y_parse_twig_with : forall n (outer : nat) (child : pfun), n <= N ->
    sim n (parse_twig_with outer child) (parse_twig_with outer child) eq.
  Proof. intros. unfold parse_twig_with. sgo.
  Qed.
  Hint Resolve y_parse_twig_with : ren.
  Definition nameR (o o' : option text) : Prop :=
    match o, o' with Some w, Some w' => replaced T T' w w' | None, None => True | _, _ => False end.
  Lemma opt_name o o' : opt_tok T T' o o' -> nameR (option_map tk_text o) (option_map tk_text o').
  Proof. destruct o, o'; cbn; auto. apply tok_replaced. Qed.
  Lemma y_parse_end_name : forall n (what : string) (name name' : option text), n <= N -> nameR name name' ->
    sim n (parse_end_name what name) (parse_end_name what name') eq.
  Proof.
    intros n what name name' Hn HN. unfold parse_end_name. ss. ss; [|sgo]. ss.
    destruct name as [w|], name' as [w'|]; cbn [nameR] in HN; try contradiction; [|sgo].
    rewrite (replaced_eqb T T' REN _ _ _ _ (tok_replaced T T' _ _ H) HN). ss; [sgo|].
    eapply sim_bind with (R1 := eq); [|intros ? ? <-; sgo]. apply sim_add_error_at; [|exact H]. right.
    exists (txt "nothing or same twig "%string ++ txt what ++ txt " name as opening ("%string), w, w', (txt ")"%string).
    split; [exact HN|]. rewrite <- !app_assoc. split; reflexivity.
  Qed.
  Hint Resolve y_parse_end_name : ren.
  Hint Extern 1 (nameR _ _) => solve [cbn; auto using tok_replaced | apply opt_name; assumption] : ren.
  Lemma y_parse_twig_macro : forall n (outer : nat) (child : pfun), n <= N ->
    sim n (parse_twig_macro outer child) (parse_twig_macro outer child) eq.
  Proof. intros. unfold parse_twig_macro. sgo.
  Qed.
  Hint Resolve y_parse_twig_macro : ren.
  Lemma y_parse_twig_verbatim : forall n (outer : nat) (child : pfun), n <= N ->
    sim n (parse_twig_verbatim outer child) (parse_twig_verbatim outer child) eq.
  Proof. intros. unfold parse_twig_verbatim. sgo.
  Qed.
  Hint Resolve y_parse_twig_verbatim : ren.
  Lemma y_parse_twig_sandbox : forall n (outer : nat) (child : pfun), n <= N ->
    sim n (parse_twig_sandbox outer child) (parse_twig_sandbox outer child) eq.
  Proof. intros. unfold parse_twig_sandbox. sgo.
  Qed.
  Hint Resolve y_parse_twig_sandbox : ren.
  Lemma y_parse_twig_flush : forall n (outer : nat), n <= N ->
    sim n (parse_twig_flush outer) (parse_twig_flush outer) eq.
  Proof. intros. unfold parse_twig_flush. sgo.
  Qed.
  Hint Resolve y_parse_twig_flush : ren.
  Lemma y_parse_twig_do : forall n (outer : nat), n <= N ->
    sim n (parse_twig_do outer) (parse_twig_do outer) eq.
  Proof. intros. unfold parse_twig_do. sgo.
  Qed.
  Hint Resolve y_parse_twig_do : ren.
  Lemma y_parse_twig_deprecated : forall n (outer : nat), n <= N ->
    sim n (parse_twig_deprecated outer) (parse_twig_deprecated outer) eq.
  Proof. intros. unfold parse_twig_deprecated. sgo.
  Qed.
  Hint Resolve y_parse_twig_deprecated : ren.
  Lemma y_parse_twig_autoescape : forall n (outer : nat) (child : pfun), n <= N ->
    sim n (parse_twig_autoescape outer child) (parse_twig_autoescape outer child) eq.
  Proof. intros. unfold parse_twig_autoescape. sgo.
  Qed.
  Hint Resolve y_parse_twig_autoescape : ren.
  Lemma y_parse_twig_apply : forall n (outer : nat) (child : pfun), n <= N ->
    sim n (parse_twig_apply outer child) (parse_twig_apply outer child) eq.
  Proof. intros. unfold parse_twig_apply. sgo.
  Qed.
  Hint Resolve y_parse_twig_apply : ren.
  Lemma y_parse_twig_import : forall n (outer : nat), n <= N ->
    sim n (parse_twig_import outer) (parse_twig_import outer) eq.
  Proof. intros. unfold parse_twig_import. sgo.
  Qed.
  Hint Resolve y_parse_twig_import : ren.
  Lemma y_parse_name_as_name_override : forall n (expected_description : string), n <= N ->
    sim n (parse_name_as_name_override expected_description) (parse_name_as_name_override expected_description) eq.
  Proof. intros. unfold parse_name_as_name_override. sgo.
  Qed.
  Hint Resolve y_parse_name_as_name_override : ren.
  Lemma y_parse_overrides : forall n (desc : string), n <= N ->
    sim n (parse_overrides desc) (parse_overrides desc) eq.
  Proof. intros. unfold parse_overrides. sgo.
  Qed.
  Hint Resolve y_parse_overrides : ren.
  Lemma y_parse_twig_from : forall n (outer : nat), n <= N ->
    sim n (parse_twig_from outer) (parse_twig_from outer) eq.
  Proof. intros. unfold parse_twig_from. sgo.
  Qed.
  Hint Resolve y_parse_twig_from : ren.
  Lemma y_parse_twig_use : forall n (outer : nat), n <= N ->
    sim n (parse_twig_use outer) (parse_twig_use outer) eq.
  Proof. intros. unfold parse_twig_use. sgo.
  Qed.
  Hint Resolve y_parse_twig_use : ren.
  Lemma y_parse_include_with : forall n (set : list kind), n <= N ->
    sim n (parse_include_with set) (parse_include_with set) eq.
  Proof. intros. unfold parse_include_with. sgo.
  Qed.
  Hint Resolve y_parse_include_with : ren.
  Lemma y_parse_twig_embed : forall n (outer : nat) (child : pfun), n <= N ->
    sim n (parse_twig_embed outer child) (parse_twig_embed outer child) eq.
  Proof. intros. unfold parse_twig_embed. sgo.
  Qed.
  Hint Resolve y_parse_twig_embed : ren.
  Lemma y_parse_twig_include : forall n (outer : nat), n <= N ->
    sim n (parse_twig_include outer) (parse_twig_include outer) eq.
  Proof. intros. unfold parse_twig_include. sgo.
  Qed.
  Hint Resolve y_parse_twig_include : ren.
  Lemma y_parse_twig_extends : forall n (outer : nat), n <= N ->
    sim n (parse_twig_extends outer) (parse_twig_extends outer) eq.
  Proof. intros. unfold parse_twig_extends. sgo.
  Qed.
  Hint Resolve y_parse_twig_extends : ren.
  Lemma y_parse_twig_for : forall n (outer : nat) (child : pfun), n <= N ->
    sim n (parse_twig_for outer child) (parse_twig_for outer child) eq.
  Proof. intros. unfold parse_twig_for. sgo.
  Qed.
  Hint Resolve y_parse_twig_for : ren.
  Lemma y_parse_set_assignment : forall n, n <= N ->
    sim n (parse_set_assignment) (parse_set_assignment) eq.
  Proof. intros. unfold parse_set_assignment. sgo.
  Qed.
  Hint Resolve y_parse_set_assignment : ren.
  Lemma y_parse_twig_set : forall n (outer : nat) (child : pfun), n <= N ->
    sim n (parse_twig_set outer child) (parse_twig_set outer child) eq.
  Proof. intros. unfold parse_twig_set. sgo.
  Qed.
  Hint Resolve y_parse_twig_set : ren.
  Lemma y_parse_twig_block : forall n (outer : nat) (child : pfun), n <= N ->
    sim n (parse_twig_block outer child) (parse_twig_block outer child) eq.
  Proof. intros. unfold parse_twig_block. sgo.
  Qed.
  Hint Resolve y_parse_twig_block : ren.
  Lemma y_parse_if_branches : forall n (child : pfun), n <= N ->
    sim n (parse_if_branches child) (parse_if_branches child) eq.
  Proof. intros. unfold parse_if_branches. sgo.
  Qed.
  Hint Resolve y_parse_if_branches : ren.
  Lemma y_parse_twig_if : forall n (outer : nat) (child : pfun), n <= N ->
    sim n (parse_twig_if outer child) (parse_twig_if outer child) eq.
  Proof. intros. unfold parse_twig_if. sgo.
  Qed.
  Hint Resolve y_parse_twig_if : ren.
  Lemma y_parse_twig_trans : forall n (outer : nat) (child : pfun), n <= N ->
    sim n (parse_twig_trans outer child) (parse_twig_trans outer child) eq.
  Proof. intros. unfold parse_twig_trans. sgo.
  Qed.
  Hint Resolve y_parse_twig_trans : ren.
  Lemma y_parse_twig_props : forall n (outer : nat), n <= N ->
    sim n (parse_twig_props outer) (parse_twig_props outer) eq.
  Proof. intros. unfold parse_twig_props. sgo.
  Qed.
  Hint Resolve y_parse_twig_props : ren.
  Lemma y_parse_twig_component : forall n (outer : nat) (child : pfun), n <= N ->
    sim n (parse_twig_component outer child) (parse_twig_component outer child) eq.
  Proof. intros. unfold parse_twig_component. sgo.
  Qed.
  Hint Resolve y_parse_twig_component : ren.
  Lemma y_parse_twig_sw_thumbnails : forall n (outer : nat), n <= N ->
    sim n (parse_twig_sw_thumbnails outer) (parse_twig_sw_thumbnails outer) eq.
  Proof. intros. unfold parse_twig_sw_thumbnails. sgo.
  Qed.
  Hint Resolve y_parse_twig_sw_thumbnails : ren.
  Lemma y_parse_twig_sw_icon : forall n (outer : nat), n <= N ->
    sim n (parse_twig_sw_icon outer) (parse_twig_sw_icon outer) eq.
  Proof. intros. unfold parse_twig_sw_icon. sgo.
  Qed.
  Hint Resolve y_parse_twig_sw_icon : ren.
  Lemma y_parse_twig_sw_return : forall n (outer : nat), n <= N ->
    sim n (parse_twig_sw_return outer) (parse_twig_sw_return outer) eq.
  Proof. intros. unfold parse_twig_sw_return. sgo.
  Qed.
  Hint Resolve y_parse_twig_sw_return : ren.
  Lemma y_parse_twig_sw_silent_feature_call : forall n (outer : nat) (child : pfun), n <= N ->
    sim n (parse_twig_sw_silent_feature_call outer child) (parse_twig_sw_silent_feature_call outer child) eq.
  Proof. intros. unfold parse_twig_sw_silent_feature_call. sgo.
  Qed.
  Hint Resolve y_parse_twig_sw_silent_feature_call : ren.
  Lemma y_parse_twig_sw_extends : forall n (outer : nat), n <= N ->
    sim n (parse_twig_sw_extends outer) (parse_twig_sw_extends outer) eq.
  Proof. intros. unfold parse_twig_sw_extends. sgo.
  Qed.
  Hint Resolve y_parse_twig_sw_extends : ren.
  Lemma y_parse_twig_sw_include : forall n (outer : nat), n <= N ->
    sim n (parse_twig_sw_include outer) (parse_twig_sw_include outer) eq.
  Proof. intros. unfold parse_twig_sw_include. sgo.
  Qed.
  Hint Resolve y_parse_twig_sw_include : ren.
  Lemma y_parse_shopware_twig_block_statement : forall n (outer : nat) (child : pfun), n <= N ->
    sim n (parse_shopware_twig_block_statement outer child) (parse_shopware_twig_block_statement outer child) eq.
  Proof. intros. unfold parse_shopware_twig_block_statement. sgo.
  Qed.
  Hint Resolve y_parse_shopware_twig_block_statement : ren.
  Lemma y_parse_twig_block_statement : forall n (child : pfun), n <= N ->
    sim n (parse_twig_block_statement child) (parse_twig_block_statement child) eq.
  Proof. intros. unfold parse_twig_block_statement. sgo.
  Qed.
  Hint Resolve y_parse_twig_block_statement : ren.
  Lemma y_parse_ludtwig_directive : forall n (outer : nat) (closing_kinds : list kind), n <= N ->
    sim n (parse_ludtwig_directive outer closing_kinds) (parse_ludtwig_directive outer closing_kinds) eq.
  Proof. intros. unfold parse_ludtwig_directive. sgo.
  Qed.
  Hint Resolve y_parse_ludtwig_directive : ren.
  Lemma y_parse_twig_plain_comment : forall n (outer : nat), n <= N ->
    sim n (parse_twig_plain_comment outer) (parse_twig_plain_comment outer) eq.
  Proof. intros. unfold parse_twig_plain_comment. sgo.
  Qed.
  Hint Resolve y_parse_twig_plain_comment : ren.
  Lemma y_parse_twig_comment_statement : forall n, n <= N ->
    sim n (parse_twig_comment_statement) (parse_twig_comment_statement) eq.
  Proof. intros. unfold parse_twig_comment_statement. sgo.
  Qed.
  Hint Resolve y_parse_twig_comment_statement : ren.
  Lemma y_parse_twig_var_statement : forall n, n <= N ->
    sim n (parse_twig_var_statement) (parse_twig_var_statement) eq.
  Proof. intros. unfold parse_twig_var_statement. sgo.
  Qed.
  Hint Resolve y_parse_twig_var_statement : ren.
  Lemma y_parse_any_twig : forall n (child : pfun), n <= N ->
    sim n (parse_any_twig child) (parse_any_twig child) eq.
  Proof. intros. unfold parse_any_twig. sgo.
  Qed.
  Hint Resolve y_parse_any_twig : ren.
  Lemma y_parse_html_doctype : forall n, n <= N ->
    sim n (parse_html_doctype) (parse_html_doctype) eq.
  Proof. intros. unfold parse_html_doctype. sgo.
  Qed.
  Hint Resolve y_parse_html_doctype : ren.
  Lemma y_parse_html_text : forall n, n <= N ->
    sim n (parse_html_text) (parse_html_text) eq.
  Proof. intros. unfold parse_html_text. sgo.
  Qed.
  Hint Resolve y_parse_html_text : ren.
  Lemma y_body_raw_inner : forall n, n <= N ->
    sim n (body_raw_inner) (body_raw_inner) eq.
  Proof. intros. unfold body_raw_inner. sgo.
  Qed.
  Hint Resolve y_body_raw_inner : ren.
  (** the name of an element, or none *)
  Definition tagR (w w' : text) : Prop := (w = [] /\ w' = []) \/ replaced T T' w w'.
  Lemma tag_sort w w' : tagR w w' -> same_sort w w'.
  Proof. intros [[-> ->]|H]; [now left|]. now apply (replaced_sort T T' REN). Qed.
  Lemma y_early_end_tag : forall n (tag_kind : kind) (tag_name tag_name' : text) (met : bool), n <= N -> tagR tag_name tag_name' ->
    sim n (early_end_tag tag_kind tag_name met) (early_end_tag tag_kind tag_name' met) eq.
  Proof.
    intros n k w w' met Hn HW. unfold early_end_tag. eapply sim_bind with (R1 := eq).
    - apply sim_look; [exact REN|]. apply lookr_following_content; [exact REN|]. constructor; [split; [reflexivity|exact I]|]. constructor; [split; [reflexivity|exact HW]|constructor].
    - intros ? ? <-. sgo.
  Qed.
  Hint Resolve y_early_end_tag : ren.
  Lemma y_parse_html_raw_text : forall n (tag_kind : kind) (tag_name tag_name' : text), n <= N -> tagR tag_name tag_name' ->
    sim n (parse_html_raw_text tag_kind tag_name) (parse_html_raw_text tag_kind tag_name') eq.
  Proof. intros. unfold parse_html_raw_text. sgo.
  Qed.
  Hint Resolve y_parse_html_raw_text : ren.
  Lemma y_parse_plain_html_comment : forall n (outer : nat), n <= N ->
    sim n (parse_plain_html_comment outer) (parse_plain_html_comment outer) eq.
  Proof. intros. unfold parse_plain_html_comment. sgo.
  Qed.
  Hint Resolve y_parse_plain_html_comment : ren.
  Lemma y_parse_html_comment : forall n, n <= N ->
    sim n (parse_html_comment) (parse_html_comment) eq.
  Proof. intros. unfold parse_html_comment. sgo.
  Qed.
  Hint Resolve y_parse_html_comment : ren.
  Lemma y_html_string_child : forall n (inner : pfun), n <= N ->
    sim n (html_string_child inner) (html_string_child inner) eq.
  Proof. intros. unfold html_string_child. sgo.
  Qed.
  Hint Resolve y_html_string_child : ren.
  Lemma y_inner_double_quote_parser : forall n, n <= N ->
    sim n (inner_double_quote_parser) (inner_double_quote_parser) eq.
  Proof. intros. unfold inner_double_quote_parser. sgo.
  Qed.
  Hint Resolve y_inner_double_quote_parser : ren.
  Lemma y_inner_single_quote_parser : forall n, n <= N ->
    sim n (inner_single_quote_parser) (inner_single_quote_parser) eq.
  Proof. intros. unfold inner_single_quote_parser. sgo.
  Qed.
  Hint Resolve y_inner_single_quote_parser : ren.
  Lemma y_inner_no_quote_parser : forall n, n <= N ->
    sim n (inner_no_quote_parser) (inner_no_quote_parser) eq.
  Proof. intros. unfold inner_no_quote_parser. sgo.
  Qed.
  Hint Resolve y_inner_no_quote_parser : ren.

  Lemma y_quote : forall n (q : option kind), n <= N ->
    sim n (match q with
           | Some TK_DOUBLE_QUOTES => inner_double_quote_parser ;; Ret tt
           | Some TK_SINGLE_QUOTES => inner_single_quote_parser ;; Ret tt
           | None => inner_no_quote_parser
           | Some _ => fail PUnreachable
           end)
          (match q with
           | Some TK_DOUBLE_QUOTES => inner_double_quote_parser ;; Ret tt
           | Some TK_SINGLE_QUOTES => inner_single_quote_parser ;; Ret tt
           | None => inner_no_quote_parser
           | Some _ => fail PUnreachable
           end) eq.
  Proof.
    intros n [q|] Hn; [|auto with ren nocore].
    assert (QF : sim n (fail PUnreachable) (fail PUnreachable) (@eq unit)) by apply sim_fail.
    destruct q; [try exact QF ..].
    - eapply sim_bind; [apply y_inner_double_quote_parser; exact Hn|]. intros. now apply sim_ret.
    - eapply sim_bind; [apply y_inner_single_quote_parser; exact Hn|]. intros. now apply sim_ret.
  Qed.
  Lemma y_parse_html_attribute_value_string : forall n, n <= N ->
    sim n (parse_html_attribute_value_string) (parse_html_attribute_value_string) eq.
  Proof. 
    intros. unfold parse_html_attribute_value_string. sx2. ss. eapply sim_bind with (R1 := eq); [sgo|]. intros q ? <-.
    ss. eapply sim_bind with (R1 := eq); [apply y_quote; assumption|]. intros ? ? <-. sgo.
  Qed.
  Hint Resolve y_parse_html_attribute_value_string : ren.
  Lemma y_parse_html_attribute_rest : forall n (attribute_m : nat), n <= N ->
    sim n (parse_html_attribute_rest attribute_m) (parse_html_attribute_rest attribute_m) eq.
  Proof. intros. unfold parse_html_attribute_rest. sgo.
  Qed.
  Hint Resolve y_parse_html_attribute_rest : ren.

  Lemma y_body_attr : forall n, n <= N ->
    sim n (body_attr) (body_attr) eq.
  Proof.
    intros n Hn. unfold body_attr.
    pose (sortR := fun o o' : option text => match o, o' with
      | Some w, Some w' => rfull HTML_ATTRIBUTE_NAME_REGEX w' = rfull HTML_ATTRIBUTE_NAME_REGEX w | None, None => True | _, _ => False end).
    eapply sim_bind with (R1 := sortR).
    - apply sim_look; [exact REN|]. intros r r' H. unfold l_attr_text. rewrite <- (lookr_at T T' REN TK_COLON r r' H).
      destruct H as [|t t' q q' P [|u u' q2 q2' P2 F]]; cbn [nth_error].
      + destruct (l_at _ _); exact I.
      + destruct (l_at _ _); [exact I|]. apply sort_attr, tok_sort, pair_tok; assumption.
      + destruct (l_at _ _); [apply sort_colon|apply sort_attr]; apply tok_sort, pair_tok; assumption.
    - intros [w|] [w'|] H; cbn [sortR] in H; try contradiction; [|sgo]. rewrite H.
      assert (B2 : sim n (bump_next_n_as 2 TK_WORD ;; Ret tt) (bump_next_n_as 2 TK_WORD ;; Ret tt) eq).
      { eapply sim_bind; [apply sim_bump_two; exact REN|]. intros. now apply sim_ret. }
      ss; [|sgo]. ss. eapply sim_bind with (R1 := eq); [|intros ? ? <-; sgo]. ss. ss; [exact B2|sgo].
  Qed.
  Hint Resolve y_body_attr : ren.
  Lemma y_parse_attribute_list : forall n, n <= N ->
    sim n (parse_attribute_list) (parse_attribute_list) eq.
  Proof. intros. unfold parse_attribute_list. sgo.
  Qed.
  Hint Resolve y_parse_attribute_list : ren.
  Lemma y_parse_html_ending_tag : forall n (tag_kind : kind) (tag_name tag_name' : text) (met : bool), n <= N -> tagR tag_name tag_name' ->
    sim n (parse_html_ending_tag tag_kind tag_name met) (parse_html_ending_tag tag_kind tag_name' met) eq.
  Proof.
    intros n k w w' met Hn HW. unfold parse_html_ending_tag.
    assert (E1 : sim n (add_error_t (w ++ txt " as ending tag name"%string)) (add_error_t (w' ++ txt " as ending tag name"%string)) eq).
    { apply sim_add_error_t; [exact HT|exact REN|]. destruct HW as [[-> ->]|HW]; [now left|]. right. exists [], w, w', (txt " as ending tag name"%string). auto. }
    assert (E2 : sim n (add_error_t (txt "</"%string ++ w ++ txt "> ending tag"%string)) (add_error_t (txt "</"%string ++ w' ++ txt "> ending tag"%string)) eq).
    { apply sim_add_error_t; [exact HT|exact REN|]. destruct HW as [[-> ->]|HW]; [now left|]. right. exists (txt "</"%string), w, w', (txt "> ending tag"%string). auto. }
    ss. ss; [|sgo]. ss.
    - ss; (eapply sim_bind with (R1 := eq); [|intros ? ? <-; sgo]; ss; ss; [sgo|]; ss; ss; [sgo|];
      eapply sim_bind with (R1 := eq); [exact E1|intros ? ? <-; sgo]).
    - eapply sim_bind with (R1 := eq); [exact E2|intros ? ? <-; sgo].
  Qed.
  Hint Resolve y_parse_html_ending_tag : ren.
  Lemma y_parse_html_element : forall n, n <= N ->
    sim n (parse_html_element) (parse_html_element) eq.
  Proof.
    intros n Hn. unfold parse_html_element. ss. ss. ss. ss.
    eapply sim_bind with (R1 := opt_tok T T'); [auto with ren nocore|]. intros o o' HO.
    assert (HK : match o' with Some t => tk_kind t | None => TK_WORD end = match o with Some t => tk_kind t | None => TK_WORD end).
    { destruct o, o'; cbn in HO; try contradiction; [|reflexivity]. symmetry. apply HO. }
    assert (HW : tagR (match o with Some t => tk_text t | None => [] end) (match o' with Some t => tk_text t | None => [] end)).
    { destruct o, o'; cbn in HO; try contradiction; [right; now apply tok_replaced|now left]. }
    rewrite HK. set (k := match o with Some t => tk_kind t | None => TK_WORD end) in *. clearbody k.
    set (w := match o with Some t => tk_text t | None => [] end) in *. set (w' := match o' with Some t => tk_text t | None => [] end) in *. clearbody w w'. clear o o' HO HK.
    pose proof (tag_sort _ _ HW) as SW. cbv zeta. rewrite (sort_tag _ _ SW).
    rewrite (sort_void _ _ SW), (sort_raw _ _ SW). sgo.
  Qed.
  Hint Resolve y_parse_html_element : ren.
  Lemma y_parse_any_html : forall n, n <= N ->
    sim n (parse_any_html) (parse_any_html) eq.
  Proof. intros. unfold parse_any_html. sgo.
  Qed.
  Hint Resolve y_parse_any_html : ren.
  Lemma y_body_any : forall n, n <= N ->
    sim n (body_any) (body_any) eq.
  Proof. intros. unfold body_any. sgo.
  Qed.
  Hint Resolve y_body_any : ren.

  Theorem y_all : forall c n, n <= N -> sim n (body c) (body c) eq.
  Proof.
    intros [bp|[]] n Hn; cbn [body].
    - now apply y_body_expression.
    - now apply y_body_any.
    - now apply y_body_raw_inner.
    - now apply y_inner_double_quote_parser.
    - now apply y_inner_single_quote_parser.
    - now apply y_body_attr.
  Qed.
End Grammar.

(** Every entry point of the grammar, with any fuel. *)
Theorem ren_call : forall dbg T T', T <> [] -> renaming T T' -> forall n c, sim dbg T T' n (body c) (body c) eq.
Proof.
  intros dbg T T' HT REN n. induction n as [n IH] using (well_founded_induction Wf_nat.lt_wf).
  intros c. apply (y_all dbg T T' HT REN n); [|lia]. intros m c0 Hm. now apply IH.
Qed.
