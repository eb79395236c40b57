(** Property theorems about the names of rules: C52. *)
From Coq Require Import NArith String Bool Arith Lia List.
Import ListNotations.
From Verif Require Import Text Kind Lexer LexerProofs ParserApi Machine TreeSpec Red Typed Rule Rules Check DefaultConfig RedFacts WalkSpec PropRun PropTree PropFits.
Local Notation length := List.length (only parsing).
Local Open Scope list_scope.

(** * What every rule calls itself *)

Definition named (n : text) (r : result) : Prop := rs_rule r = n.
Definition named_opt (n : text) (o : option result) : Prop := match o with Some r => named n r | None => True end.

(** Everything a rule can say carries its name. *)
Definition own_name (rl : rule) : Prop := forall ctx e root,
  Forall (named (rl_name rl)) (rl_node rl ctx e) /\ Forall (named (rl_name rl)) (rl_token rl ctx e) /\
  match rl_root rl ctx (root_elem root) with Done l => Forall (named (rl_name rl)) l | Crashed => True end.

Lemma named_bind {A} n (o : option A) f : (forall a, named_opt n (f a)) -> named_opt n (obind o f).
Proof. destruct o as [a|]; intros H; [apply H|exact I]. Qed.
Lemma named_if n (b : bool) x y : named_opt n x -> named_opt n y -> named_opt n (if b then x else y).
Proof. destruct b; auto. Qed.
Lemma named_node n f : (forall ctx e, named_opt n (f ctx e)) -> own_name (node_rule n f).
Proof.
  intros H ctx e root. specialize (H ctx e). cbn [rl_name rl_node rl_token rl_root node_rule no_check no_root].
  destruct (f ctx e); repeat split; repeat constructor. exact H.
Qed.

Ltac nm := repeat first
  [ apply named_node; intros ? ? | apply named_bind; intros ? | apply named_if
  | exact I | reflexivity
  | match goal with |- context [match ?x with _ => _ end] => destruct x end ].

Lemma own_duplicate name enter ctx root :
  (forall s e s' b, enter s e = Done (s', b) -> Forall (named name) (dp_results s) -> Forall (named name) (dp_results s')) ->
  match duplicate_root name enter ctx (root_elem root) with Done l => Forall (named name) l | Crashed => True end.
Proof.
  intros HE. unfold duplicate_root. cbn [root_elem el_tree el_off el_path].
  destruct (walk false enter (duplicate_leave name) root 0 [] _) as [s|] eqn:H; [|exact I].
  change (walk_elem false enter (duplicate_leave name) (root_elem root) (mkDup [] false []) = Done s) in H.
  revert H. apply (walk_invariant root false enter (duplicate_leave name) (fun s => Forall (named name) (dp_results s))).
  - intros s0 x s' b W P H. exact (HE _ _ _ _ H P).
  - intros s0 x s' W P [= <-]. exact P.
  - apply within_root.
  - constructor.
Qed.

Lemma own_check_quotes n q s i : named_opt n (check_quotes n q s i).
Proof.
  unfold check_quotes. apply named_if; [|exact I]. destruct (range_trimmed_trivia s). cbn [named_opt].
  unfold change_quotes. destruct i as [i|]; [|reflexivity]. destruct (contains_char _ _); [reflexivity|].
  destruct (opening_quote s), (closing_quote s); reflexivity.
Qed.

Lemma own_handle ctx e l s : Forall (named (txt "indentation"%string)) (handle_first_token_in_line ctx e l s).
Proof.
  unfold handle_first_token_in_line. destruct (kind_eqb _ _); [destruct (negb _)|destruct (_ || _)]; repeat constructor.
Qed.

Lemma own_names_of_definitions : Forall own_name RULE_DEFINITIONS.
Proof.
  unfold RULE_DEFINITIONS. repeat apply Forall_cons; try apply Forall_nil.
  - nm.
  - intros ctx e root. cbn [rl_name rl_node rl_token rl_root rule_whitespace_between_line_breaks no_check no_root].
    split; [constructor|]. split; [|constructor].
    match goal with |- Forall _ match ?x with _ => _ end => assert (H : named_opt (txt "whitespace-between-line-breaks"%string) x);
      [nm|destruct x; [constructor; [exact H|constructor]|constructor]] end.
  - intros ctx e root. cbn [rl_name rl_node rl_token rl_root rule_line_ending no_check no_root].
    split; [constructor|]. split; [|constructor]. destruct (negb _); [constructor|]. apply Forall_forall. intros r Hr.
    apply in_map_iff in Hr as (m & <- & _). reflexivity.
  - intros ctx e root. cbn [rl_name rl_node rl_token rl_root rule_indentation no_check]. split; [constructor|]. split; [constructor|].
    unfold indent_root. cbn [root_elem el_tree el_off el_path].
    destruct (walk true _ _ root 0 [] _) as [s|] eqn:H; [|exact I].
    change (walk_elem true (indent_enter ctx) (indent_leave ctx) (root_elem root) (mkIndent true 0 0 false false []) = Done s) in H.
    revert H. apply (walk_invariant root true (indent_enter ctx) (indent_leave ctx) (fun s => Forall (named (txt "indentation"%string)) (in_results s))).
    + intros s0 x s' b W P. unfold indent_enter. destruct (is_node _).
      * destruct (kind_eqb _ _); [intros [= <- <-]; exact P|]. destruct (ignore_enter _ _ _) as [ign sk]. destruct sk; intros [= <- <-]; exact P.
      * destruct (kind_eqb _ _); [intros [= <- <-]; exact P|]. intros [= <- <-]. cbn [in_results]. apply Forall_app. split; [exact P|].
        destruct (_ && _); [apply own_handle|constructor].
    + intros s0 x s' W P. unfold indent_leave. destruct (is_node _); [|intros [= <-]; exact P].
      match goal with |- match ?a with _ => _ end = _ -> _ => destruct a as [l|] end; [|discriminate].
      destruct (checked_sub _ _); [|discriminate]. intros [= <-]. exact P.
    + apply within_root.
    + constructor.
  - intros ctx e root. cbn [rl_name rl_node rl_token rl_root rule_block_line_breaks no_check no_root]. split; [|split; constructor].
    destruct (check_block_line_breaks ctx e) as [l|] eqn:E; [|constructor]. unfold check_block_line_breaks in E.
    assert (G : forall p, Forall (named (txt "twig-block-line-breaks"%string)) (check_line_break (txt "twig-block-line-breaks"%string) p)).
    { intros [[o x] a]. unfold check_line_break. destruct o as [tk|]; [|constructor]. destruct (kind_eqb _ _); [destruct (negb _)|]; repeat constructor. }
    destruct (cx_sensitive ctx); [discriminate E|]. destruct (cast _ _) as [b|]; [|discriminate E]. cbn [obind] in E.
    match type of E with (if ?x then _ else _) = _ => destruct x end; [discriminate E|]. destruct (starting_block b); [|discriminate E]. cbn [obind] in E.
    destruct (ending_block b); [|discriminate E]. cbn [obind] in E. cbv zeta in E.
    apply (f_equal (fun o => match o with Some l => l | None => [] end)) in E. cbv beta match in E. rewrite <- E.
    apply Forall_forall. intros r Hr. apply in_flat_map in Hr as (p & _ & Hr). specialize (G p). rewrite Forall_forall in G. auto.
  - nm.
  - nm.
  - nm.
  - nm.
  - apply named_node. intros ctx e. apply named_bind. intros s. cbn zeta. apply named_if; [exact I|]. apply own_check_quotes.
  - apply named_node. intros ctx e. apply named_bind. intros s. apply own_check_quotes.
  - nm.
  - nm.
  - nm.
  - nm.
  - intros ctx e root. cbn [rl_name rl_node rl_token rl_root rule_block_duplicate no_check]. split; [constructor|]. split; [constructor|].
    apply own_duplicate. intros s x s' b H P. unfold block_duplicate_enter in H.
    destruct (ignore_enter _ _ x) as [ign sk]. destruct sk; [injection H as <- <-; exact P|].
    destruct ign; injection H as <- <-; [exact P|]. unfold block_duplicate_visit.
    destruct (let? b := cast TWIG_BLOCK x in _) as [[a n]|]; [|exact P].
    destruct (let? b0 := lookup _ _ in _); cbn [dp_results]; [|exact P].
    apply Forall_app. split; [exact P|]. repeat constructor.
  - nm.
  - intros ctx e root. cbn [rl_name rl_node rl_token rl_root rule_duplicate_id no_check]. split; [constructor|]. split; [constructor|].
    apply own_duplicate. intros s x s' b H P. unfold duplicate_id_enter in H.
    destruct (kind_eqb (el_kind x) ERROR); [injection H as <- <-; exact P|].
    destruct (ignore_enter _ _ x) as [ign sk]. destruct sk; [injection H as <- <-; exact P|].
    destruct ign; injection H as <- <-; [exact P|]. unfold duplicate_id_visit.
    destruct (let? b := cast HTML_ATTRIBUTE x in _) as [[a n]|]; [|exact P].
    destruct (let? b0 := lookup _ _ in _); cbn [dp_results]; [|exact P].
    apply Forall_app. split; [exact P|]. repeat constructor.
  - intros ctx e root. cbn [rl_name rl_node rl_token rl_root rule_variable_definition_naming no_check no_root]. split; [|split; constructor].
    destruct (negb _); [constructor|].
    assert (G : forall b, Forall (named (txt "twig-variable-definition-naming"%string)) (check_literal_names e b)).
    { intros b. apply Forall_forall. intros r Hr. apply in_flat_map in Hr. destruct Hr as (n & _ & Hr).
      destruct (literal_name n); [|destruct Hr]. apply in_app_or in Hr.
      destruct Hr as [Hr|Hr]; match type of Hr with In _ (if ?b then _ else _) => destruct b end;
        destruct Hr as [<-|[]] || destruct Hr; reflexivity. }
    destruct (el_kind e); try apply G; constructor.
  - nm.
  - nm.
  - nm.
Qed.

Lemma names_distinct : NoDup (map rl_name RULE_DEFINITIONS).
Proof.
  assert (H : forallb (fun p => negb (mem_text (fst p) (snd p)))
     ((fix tails (l : list text) := match l with [] => [] | x :: r => (x, r) :: tails r end) (map rl_name RULE_DEFINITIONS)) = true)
    by (vm_compute; reflexivity).
  revert H. generalize (map rl_name RULE_DEFINITIONS). induction l as [|x l IH]; intros H; constructor.
  - cbn [forallb fst snd] in H. apply andb_true_iff in H as [H _]. intros Hx. apply negb_true_iff in H.
    rewrite <- not_true_iff_false in H. apply H. unfold mem_text. apply existsb_exists. exists x. split; [exact Hx|]. now apply text_eqb_eq.
  - cbn [forallb] in H. apply andb_true_iff in H as [_ H]. auto.
Qed.

(** * C52: a report names its rule; switching the rule off removes exactly its reports *)

Section Off.
  Context (cf : config) (t : tree).

  Lemma named_results rules results : incl rules RULE_DEFINITIONS -> run_rules cf rules t = Done results ->
    forall r, In r results -> exists rl, In rl rules /\ rs_rule r = rl_name rl.
  Proof.
    intros HI H r Hr. destruct rules as [|r0 rs]; [injection H as <-; destruct Hr|].
    destruct (C15_ignore_directives_have_exact_scope cf (r0 :: rs) t results H ltac:(discriminate)) as (roots & flag & HR & ->).
    pose proof own_names_of_definitions as ON. rewrite Forall_forall in ON.
    apply in_app_or in Hr as [Hr|Hr].
    - clear H. revert roots HR Hr. induction (r0 :: rs) as [|a l IH]; intros roots HR Hr; cbn [run_roots] in HR.
      + injection HR as <-. destruct Hr.
      + destruct (ON a (HI a (or_introl eq_refl)) (mkCtx cf false) (root_elem t) t) as (_ & _ & G).
        destruct (rl_root a (mkCtx cf false) (root_elem t)) as [x|]; [|discriminate HR].
        destruct (run_roots cf l (root_elem t)) as [y|]; [|discriminate HR]. injection HR as <-.
        apply in_app_or in Hr as [Hr|Hr].
        * exists a. split; [now left|]. rewrite Forall_forall in G. now apply G.
        * destruct (IH (fun z Hz => HI z (or_intror Hz)) y eq_refl Hr) as (rl & H1 & H2). exists rl. split; [now right|exact H2].
    - apply in_flat_map in Hr as (e & He & Hr). apply in_flat_map in Hr as (rl & Hrl & Hr).
      destruct (ON rl (HI rl Hrl) (mkCtx cf (flag e)) e t) as (G1 & G2 & _). rewrite Forall_forall in G1, G2.
      exists rl. split; [exact Hrl|]. destruct (switched_off _ _); [destruct Hr|]. destruct (is_node _); [now apply G1|now apply G2].
  Qed.

  (** results without those of the rule [n] *)
  Definition others (n : text) (rs : list result) : list result := filter (fun r => negb (text_eqb (rs_rule r) n)) rs.
  Definition without (n : text) (rules : list rule) : list rule := filter (fun rl => negb (text_eqb (rl_name rl) n)) rules.

  Lemma others_all n l m : Forall (named m) l -> others n l = if text_eqb m n then [] else l.
  Proof.
    induction 1 as [|r l Hr _ IH]; [destruct (text_eqb m n); reflexivity|]. unfold others in *. cbn [filter].
    rewrite Hr, IH. destruct (text_eqb m n); reflexivity.
  Qed.

  Lemma others_flat_map {A} n (f : A -> list result) l : others n (flat_map f l) = flat_map (fun x => others n (f x)) l.
  Proof. induction l as [|x l IH]; [reflexivity|]. cbn [flat_map]. unfold others in *. now rewrite filter_app, IH. Qed.

  Lemma roots_without n rules : Forall own_name rules -> forall roots, run_roots cf rules (root_elem t) = Done roots ->
    run_roots cf (without n rules) (root_elem t) = Done (others n roots).
  Proof.
    induction 1 as [|a l Ha _ IH]; intros roots HR; cbn [run_roots] in HR; [injection HR as <-; reflexivity|].
    destruct (Ha (mkCtx cf false) (root_elem t) t) as (_ & _ & G).
    destruct (rl_root a (mkCtx cf false) (root_elem t)) as [x|] eqn:E; [|discriminate HR].
    destruct (run_roots cf l (root_elem t)) as [y|]; [|discriminate HR]. injection HR as <-.
    specialize (IH y eq_refl). unfold without in *. cbn [filter]. unfold others. rewrite filter_app. fold (others n x) (others n y).
    rewrite (others_all n x (rl_name a) G). destruct (text_eqb (rl_name a) n); cbn [negb app run_roots]; [exact IH|].
    rewrite E, IH. reflexivity.
  Qed.

  Lemma checked_without n rules b e : Forall own_name rules ->
    checked cf (without n rules) b e = others n (checked cf rules b e).
  Proof.
    unfold checked. induction 1 as [|a l Ha _ IH]; [reflexivity|].
    destruct (Ha (mkCtx cf b) e t) as (G1 & G2 & _).
    unfold without in *. cbn [filter flat_map]. unfold others. rewrite filter_app. fold (others n).
    match goal with |- _ = filter _ ?x ++ _ => set (mine := x) end. fold (others n mine).
    assert (G : Forall (named (rl_name a)) mine).
    { unfold mine. destruct (switched_off _ _); [constructor|]. destruct (is_node _); assumption. }
    rewrite (others_all n mine (rl_name a) G). fold (others n (flat_map (fun r => if switched_off (rl_name r) e then [] else (if is_node (el_tree e) then rl_node r else rl_token r) (mkCtx cf b) e) l)).
    destruct (text_eqb (rl_name a) n); cbn [negb app flat_map]; [exact IH|]. now rewrite IH.
  Qed.
End Off.

(** Every report of a run carries the name of one of the rules that were run; no two rules
    have the same name. *)
Theorem C52_reports_name_their_rule : forall cf rules t results, incl rules RULE_DEFINITIONS ->
  run_rules cf rules t = Done results ->
  (forall r, In r results -> exists rl, In rl rules /\ rs_rule r = rl_name rl) /\
  (forall rl rl', In rl rules -> In rl' rules -> rl_name rl = rl_name rl' -> rl = rl').
Proof.
  intros cf rules t results HI H. split; [now apply (named_results cf t rules results)|].
  intros rl rl' H1 H2 E. apply HI in H1, H2. pose proof names_distinct as ND. revert ND H1 H2.
  generalize RULE_DEFINITIONS. induction l as [|a l IH]; intros ND H1 H2; [destruct H1|].
  cbn [map] in ND. inversion ND as [|? ? N1 N2]; subst. destruct H1 as [<-|H1], H2 as [<-|H2]; auto; exfalso; apply N1.
  - rewrite E. now apply in_map.
  - rewrite <- E. now apply in_map.
Qed.

(** Without the rule [n], whether taken out of the configuration or by a directive for the
    file, the same template gets the same reports except those of [n], in the same order. *)
Theorem C52_switching_off_removes_exactly_its_reports : forall cf rules t results n, incl rules RULE_DEFINITIONS ->
  run_rules cf rules t = Done results ->
  run_rules cf (filter (fun rl => negb (text_eqb (rl_name rl) n)) rules) t
  = Done (filter (fun r => negb (text_eqb (rs_rule r) n)) results).
Proof.
  intros cf rules t results n HI H. fold (without n rules) (others n results).
  assert (ON : Forall own_name rules).
  { apply Forall_forall. intros rl Hrl. pose proof own_names_of_definitions as ON. rewrite Forall_forall in ON. auto. }
  destruct rules as [|r0 rs]; [injection H as <-; reflexivity|].
  remember (r0 :: rs) as rules eqn:ER. assert (NE : rules <> []) by (rewrite ER; discriminate). clear ER r0 rs.
  unfold run_rules in H. destruct rules as [|r0 rs] eqn:ER; [contradiction|]. rewrite <- ER in *. clear NE.
  destruct (run_roots cf rules (root_elem t)) as [roots|] eqn:R; [|discriminate H].
  destruct (run_walk_spec cf rules t roots) as (s & A & _ & _ & B). rewrite A in H. injection H as <-. rewrite B.
  pose proof (roots_without cf t n rules ON roots R) as R'.
  unfold others at 1. rewrite filter_app. fold (others n roots).
  match goal with |- _ = Done (_ ++ filter _ ?x) => fold (others n x) end. rewrite others_flat_map.
  unfold run_rules. destruct (without n rules) as [|r1 rs1] eqn:EW.
  - cbn [run_roots] in R'. injection R' as <-. cbn [app]. f_equal.
    clear B. induction (filter (seen run_hides) (elements t)) as [|e l IH]; [reflexivity|]. cbn [flat_map]. rewrite <- IH, app_nil_r.
    rewrite <- (checked_without cf t n rules _ e ON), EW. reflexivity.
  - rewrite <- EW in *. rewrite R'. destruct (run_walk_spec cf (without n rules) t (others n roots)) as (s' & A' & _ & _ & B').
    rewrite A', B'. f_equal. f_equal. apply flat_map_ext. intros e. now apply checked_without.
Qed.

(** ** A concrete case: a template that five rules complain about, and the same run without one of them *)
Definition off_template : text := txt "<div id=""a"" fooBar='x'>{{ a && b|nosuch }}</div><div id=""a"">{% if a === b %}c{% endif %}</div>"%string.
Definition off_run (rules : list rule) : list text :=
  match parse_src true off_template with
  | OK (t, []) => match run_rules default_config rules t with Done l => map rs_rule l | Crashed => [] end
  | _ => []
  end.
Example C52_case :
  off_run RULE_DEFINITIONS = map txt ["html-duplicate-id"; "html-attribute-name-kebab-case"; "html-string-quotation";
    "twig-logic-and"; "twig-valid-filter"; "twig-use-is-same-as"]%string /\
  off_run (without (txt "twig-logic-and"%string) RULE_DEFINITIONS)
  = map txt ["html-duplicate-id"; "html-attribute-name-kebab-case"; "html-string-quotation";
      "twig-valid-filter"; "twig-use-is-same-as"]%string.
Proof. vm_compute. split; reflexivity. Qed.

Print Assumptions C52_reports_name_their_rule.
Print Assumptions C52_switching_off_removes_exactly_its_reports.
