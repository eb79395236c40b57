(** No rule reports with severity Info (the name of the rule plays no part here). *)
From Coq Require Import NArith String Bool Arith Lia List.
Import ListNotations.
From Verif Require Import Text Kind Lexer LexerProofs ParserApi Machine TreeSpec Red Typed Rule Rules Check DefaultConfig RedFacts WalkSpec PropRun PropTree PropFits.
Local Notation length := List.length (only parsing).
Local Open Scope list_scope.

Definition loud (n : text) (r : result) : Prop := rs_severity r <> SInfo.
Definition loud_opt (n : text) (o : option result) : Prop := match o with Some r => loud n r | None => True end.

(** Everything a rule can say is at least a suggestion (Help). *)
Definition is_loud (rl : rule) : Prop := forall ctx e root,
  Forall (loud (rl_name rl)) (rl_node rl ctx e) /\ Forall (loud (rl_name rl)) (rl_token rl ctx e) /\
  match rl_root rl ctx (root_elem root) with Done l => Forall (loud (rl_name rl)) l | Crashed => True end.

Lemma loud_bind {A} n (o : option A) f : (forall a, loud_opt n (f a)) -> loud_opt n (obind o f).
Proof. destruct o as [a|]; intros H; [apply H|exact I]. Qed.
Lemma loud_if n (b : bool) x y : loud_opt n x -> loud_opt n y -> loud_opt n (if b then x else y).
Proof. destruct b; auto. Qed.
Lemma loud_node n f : (forall ctx e, loud_opt n (f ctx e)) -> is_loud (node_rule n f).
Proof.
  intros H ctx e root. specialize (H ctx e). cbn [rl_name rl_node rl_token rl_root node_rule no_check no_root].
  destruct (f ctx e); repeat split; (repeat constructor; try discriminate). exact H.
Qed.

Ltac ld := repeat first
  [ apply loud_node; intros ? ? | apply loud_bind; intros ? | apply loud_if
  | exact I | discriminate
  | match goal with |- context [match ?x with _ => _ end] => destruct x end ].

Lemma loud_duplicate name enter ctx root :
  (forall s e s' b, enter s e = Done (s', b) -> Forall (loud name) (dp_results s) -> Forall (loud name) (dp_results s')) ->
  match duplicate_root name enter ctx (root_elem root) with Done l => Forall (loud name) l | Crashed => True end.
Proof.
  intros HE. unfold duplicate_root. cbn [root_elem el_tree el_off el_path].
  destruct (walk false enter (duplicate_leave name) root 0 [] _) as [s|] eqn:H; [|exact I].
  change (walk_elem false enter (duplicate_leave name) (root_elem root) (mkDup [] false []) = Done s) in H.
  revert H. apply (walk_invariant root false enter (duplicate_leave name) (fun s => Forall (loud name) (dp_results s))).
  - intros s0 x s' b W P H. exact (HE _ _ _ _ H P).
  - intros s0 x s' W P [= <-]. exact P.
  - apply within_root.
  - constructor.
Qed.

Lemma loud_check_quotes n q s i : loud_opt n (check_quotes n q s i).
Proof.
  unfold check_quotes. apply loud_if; [|exact I]. destruct (range_trimmed_trivia s). cbn [loud_opt].
  unfold change_quotes. destruct i as [i|]; [|discriminate]. destruct (contains_char _ _); [discriminate|].
  destruct (opening_quote s), (closing_quote s); discriminate.
Qed.

Lemma loud_handle ctx e l s : Forall (loud (txt "indentation"%string)) (handle_first_token_in_line ctx e l s).
Proof.
  unfold handle_first_token_in_line. destruct (kind_eqb _ _); [destruct (negb _)|destruct (_ || _)]; (repeat constructor; try discriminate).
Qed.

Lemma is_louds_of_definitions : Forall is_loud RULE_DEFINITIONS.
Proof.
  unfold RULE_DEFINITIONS. repeat apply Forall_cons; try apply Forall_nil.
  - ld.
  - intros ctx e root. cbn [rl_name rl_node rl_token rl_root rule_whitespace_between_line_breaks no_check no_root].
    split; [constructor|]. split; [|constructor].
    match goal with |- Forall _ match ?x with _ => _ end => assert (H : loud_opt (txt "whitespace-between-line-breaks"%string) x);
      [ld|destruct x; [constructor; [exact H|constructor]|constructor]] end.
  - intros ctx e root. cbn [rl_name rl_node rl_token rl_root rule_line_ending no_check no_root].
    split; [constructor|]. split; [|constructor]. destruct (negb _); [constructor|]. apply Forall_forall. intros r Hr.
    apply in_map_iff in Hr as (m & <- & _). discriminate.
  - intros ctx e root. cbn [rl_name rl_node rl_token rl_root rule_indentation no_check]. split; [constructor|]. split; [constructor|].
    unfold indent_root. cbn [root_elem el_tree el_off el_path].
    destruct (walk true _ _ root 0 [] _) as [s|] eqn:H; [|exact I].
    change (walk_elem true (indent_enter ctx) (indent_leave ctx) (root_elem root) (mkIndent true 0 0 false false []) = Done s) in H.
    revert H. apply (walk_invariant root true (indent_enter ctx) (indent_leave ctx) (fun s => Forall (loud (txt "indentation"%string)) (in_results s))).
    + intros s0 x s' b W P. unfold indent_enter. destruct (is_node _).
      * destruct (kind_eqb _ _); [intros [= <- <-]; exact P|]. destruct (ignore_enter _ _ _) as [ign sk]. destruct sk; intros [= <- <-]; exact P.
      * destruct (kind_eqb _ _); [intros [= <- <-]; exact P|]. intros [= <- <-]. cbn [in_results]. apply Forall_app. split; [exact P|].
        destruct (_ && _); [apply loud_handle|constructor].
    + intros s0 x s' W P. unfold indent_leave. destruct (is_node _); [|intros [= <-]; exact P].
      match goal with |- match ?a with _ => _ end = _ -> _ => destruct a as [l|] end; [|discriminate].
      destruct (checked_sub _ _); [|discriminate]. intros [= <-]. exact P.
    + apply within_root.
    + constructor.
  - intros ctx e root. cbn [rl_name rl_node rl_token rl_root rule_block_line_breaks no_check no_root]. split; [|split; constructor].
    destruct (check_block_line_breaks ctx e) as [l|] eqn:E; [|constructor]. unfold check_block_line_breaks in E.
    assert (G : forall p, Forall (loud (txt "twig-block-line-breaks"%string)) (check_line_break (txt "twig-block-line-breaks"%string) p)).
    { intros [[o x] a]. unfold check_line_break. destruct o as [tk|]; [|constructor]. destruct (kind_eqb _ _); [destruct (negb _)|]; (repeat constructor; try discriminate). }
    destruct (cx_sensitive ctx); [discriminate E|]. destruct (cast _ _) as [b|]; [|discriminate E]. cbn [obind] in E.
    match type of E with (if ?x then _ else _) = _ => destruct x end; [discriminate E|]. destruct (starting_block b); [|discriminate E]. cbn [obind] in E.
    destruct (ending_block b); [|discriminate E]. cbn [obind] in E. cbv zeta in E.
    apply (f_equal (fun o => match o with Some l => l | None => [] end)) in E. cbv beta match in E. rewrite <- E.
    apply Forall_forall. intros r Hr. apply in_flat_map in Hr as (p & _ & Hr). specialize (G p). rewrite Forall_forall in G. auto.
  - ld.
  - ld.
  - ld.
  - ld.
  - apply loud_node. intros ctx e. apply loud_bind. intros s. cbn zeta. apply loud_if; [exact I|]. apply loud_check_quotes.
  - apply loud_node. intros ctx e. apply loud_bind. intros s. apply loud_check_quotes.
  - ld.
  - ld.
  - ld.
  - ld.
  - intros ctx e root. cbn [rl_name rl_node rl_token rl_root rule_block_duplicate no_check]. split; [constructor|]. split; [constructor|].
    apply loud_duplicate. intros s x s' b H P. unfold block_duplicate_enter in H.
    destruct (ignore_enter _ _ x) as [ign sk]. destruct sk; [injection H as <- <-; exact P|].
    destruct ign; injection H as <- <-; [exact P|]. unfold block_duplicate_visit.
    destruct (let? b := cast TWIG_BLOCK x in _) as [[a n]|]; [|exact P].
    destruct (let? b0 := lookup _ _ in _); cbn [dp_results]; [|exact P].
    apply Forall_app. split; [exact P|]. (repeat constructor; try discriminate).
  - ld.
  - intros ctx e root. cbn [rl_name rl_node rl_token rl_root rule_duplicate_id no_check]. split; [constructor|]. split; [constructor|].
    apply loud_duplicate. intros s x s' b H P. unfold duplicate_id_enter in H.
    destruct (kind_eqb (el_kind x) ERROR); [injection H as <- <-; exact P|].
    destruct (ignore_enter _ _ x) as [ign sk]. destruct sk; [injection H as <- <-; exact P|].
    destruct ign; injection H as <- <-; [exact P|]. unfold duplicate_id_visit.
    destruct (let? b := cast HTML_ATTRIBUTE x in _) as [[a n]|]; [|exact P].
    destruct (let? b0 := lookup _ _ in _); cbn [dp_results]; [|exact P].
    apply Forall_app. split; [exact P|]. (repeat constructor; try discriminate).
  - intros ctx e root. cbn [rl_name rl_node rl_token rl_root rule_variable_definition_naming no_check no_root]. split; [|split; constructor].
    destruct (negb _); [constructor|].
    assert (G : forall b, Forall (loud (txt "twig-variable-definition-naming"%string)) (check_literal_names e b)).
    { intros b. apply Forall_forall. intros r Hr. apply in_flat_map in Hr. destruct Hr as (n & _ & Hr).
      destruct (literal_name n); [|destruct Hr]. apply in_app_or in Hr.
      destruct Hr as [Hr|Hr]; match type of Hr with In _ (if ?b then _ else _) => destruct b end;
        destruct Hr as [<-|[]] || destruct Hr; discriminate. }
    destruct (el_kind e); try apply G; constructor.
  - ld.
  - ld.
  - ld.
Qed.


Lemma loud_results cf t rules results : incl rules RULE_DEFINITIONS -> run_rules cf rules t = Done results ->
  forall r, In r results -> rs_severity r <> SInfo.
Proof.
  intros HI H r Hr. destruct rules as [|r0 rs]; [injection H as <-; destruct Hr|].
  destruct (C15_ignore_directives_have_exact_scope cf (r0 :: rs) t results H ltac:(discriminate)) as (roots & flag & HR & ->).
  pose proof is_louds_of_definitions as ON. rewrite Forall_forall in ON.
  apply in_app_or in Hr as [Hr|Hr].
  - clear H. revert roots HR Hr. induction (r0 :: rs) as [|a l IH]; intros roots HR Hr; cbn [run_roots] in HR.
    + injection HR as <-. destruct Hr.
    + destruct (ON a (HI a (or_introl eq_refl)) (mkCtx cf false) (root_elem t) t) as (_ & _ & G).
      destruct (rl_root a (mkCtx cf false) (root_elem t)) as [x|]; [|discriminate HR].
      destruct (run_roots cf l (root_elem t)) as [y|]; [|discriminate HR]. injection HR as <-.
      apply in_app_or in Hr as [Hr|Hr].
      * rewrite Forall_forall in G. now apply G.
      * exact (IH (fun z Hz => HI z (or_intror Hz)) y eq_refl Hr).
  - apply in_flat_map in Hr as (e & He & Hr). apply in_flat_map in Hr as (rl & Hrl & Hr).
    destruct (ON rl (HI rl Hrl) (mkCtx cf (flag e)) e t) as (G1 & G2 & _). rewrite Forall_forall in G1, G2.
    destruct (switched_off _ _); [destruct Hr|]. destruct (is_node _); [now apply G1|now apply G2].
Qed.
