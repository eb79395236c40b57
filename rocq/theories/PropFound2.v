(** Property theorems: what the rules about names, directives, extends, json_encode and hash keys
    report, C57 and C58. *)
From Coq Require Import NArith String Bool Arith Lia List.
Import ListNotations.
From Verif Require Import Text Kind Regex Lexer LexerProofs ParserApi Machine TreeSpec.
From Verif Require Schema Skeleton PropShape PropSkel.
From Verif Require Import Red Typed Rule Rules Naming GrammarExpr Check DefaultConfig RedFacts WalkSpec PropRun PropSelect PropNaming PropOff Found FoundRun FoundShape PropFound.
Local Notation length := List.length (only parsing).
Local Open Scope list_scope.

(** * Tokens among the parts *)

Definition is_tok (k : kind) (s : Schema.sym) : bool := match s with Schema.Tok k' => kind_eqb k' k | Schema.Nd _ => false end.
Lemma tokens_among k e : length (filter (token_of k) (parts e)) = length (filter (is_tok k) (Schema.content (children (el_tree e)))).
Proof.
  induction (parts_content e) as [|s x l l' H _ IH]; [reflexivity|]. cbn [filter].
  assert (E : token_of k x = is_tok k s).
  { destruct s as [k'|k']; destruct H as (y & H); unfold token_of, el_kind; rewrite H; reflexivity. }
  rewrite E. destruct (is_tok k s); cbn [List.length]; auto.
Qed.
Lemma find_hd {A} (f : A -> bool) l : find f l = hd_error (filter f l).
Proof. induction l as [|x l IH]; [reflexivity|]. cbn [find filter]. destruct (f x); [reflexivity|exact IH]. Qed.
(** At most one token of a kind: it is the one that is found. *)
Lemma one_token k e : Schema.junk k = false -> length (filter (token_of k) (parts e)) <= 1 ->
  match support_token k e with
  | Some w => (In w (parts e) /\ a_token k w) /\ (forall x, In x (parts e) -> a_token k x -> x = w)
  | None => forall x, In x (parts e) -> ~ a_token k x
  end.
Proof.
  intros J L. rewrite (support_token_parts _ _ J), find_hd.
  assert (G : forall x, In x (parts e) -> a_token k x -> In x (filter (token_of k) (parts e))).
  { intros x H1 H2. apply filter_In. split; [exact H1|now apply token_of_true]. }
  assert (G' : forall x, In x (filter (token_of k) (parts e)) -> In x (parts e) /\ a_token k x).
  { intros x H. apply filter_In in H as [H1 H2]. split; [exact H1|now apply a_token_kind]. }
  destruct (filter (token_of k) (parts e)) as [|w [|w2 r]]; cbn [hd_error List.length] in *; [|split|lia].
  - intros x H1 H2. exact (G x H1 H2).
  - apply G'. now left.
  - intros x H1 H2. destruct (G x H1 H2) as [<-|[]]. reflexivity.
Qed.

Ltac sem_all := repeat match goal with
  | H : Schema.sem (Schema.Seq _ _) _ |- _ =>
    let x := fresh "x" in let y := fresh "y" in destruct H as (x & y & -> & ? & ?)
  | H : Schema.sem (Schema.One _) _ |- _ => let s := fresh "s" in destruct H as (s & -> & H)
  | H : Schema.sem (Schema.Alt _ _) _ |- _ => destruct H as [H|H]
  | H : Schema.sem Schema.Eps _ |- _ => cbn [Schema.sem] in H; subst
  | H : In _ (_ :: _) |- _ => destruct H as [<-|H]
  | H : In _ [] |- _ => destruct H
  end.
Ltac count_tokens HP He Hk :=
  rewrite tokens_among; pose proof (node_sem _ _ _ HP _ _ _ He Hk ltac:(discriminate) eq_refl) as C; models;
  revert C; match goal with |- context [Schema.content ?x] => generalize (Schema.content x) end; intros l C; sem_all; vm_compute; auto.

Section Tokens.
  Context (dbg : bool) (src : text) (t : tree) (HP : parse_src dbg src = OK (t, [])).

  Lemma block_words s : In s (elements t) -> a_node TWIG_STARTING_BLOCK s -> length (filter (token_of TK_WORD) (parts s)) <= 1.
  Proof. intros He Hk. count_tokens HP He Hk. Qed.
  Lemma attribute_words a : In a (elements t) -> a_node HTML_ATTRIBUTE a -> length (filter (token_of TK_WORD) (parts a)) <= 1.
  Proof. intros He Hk. count_tokens HP He Hk. Qed.
  Lemma extends_words x : In x (elements t) -> a_node TWIG_EXTENDS x -> length (filter (token_of TK_EXTENDS) (parts x)) = 1.
  Proof. intros He Hk. count_tokens HP He Hk. Qed.
End Tokens.

Definition snake_ok := proj1 (proj2 C30_snake_case_suggestions).
Definition snake_new := proj1 C30_snake_case_suggestions.
Definition kebab_ok := proj1 (proj2 C32_kebab_case_suggestions).
Definition kebab_new := proj1 C32_kebab_case_suggestions.

(** * C57: names of blocks, attributes and variables *)

(** The report for the name [w]: nothing else than a valid name with the same letters is offered. *)
Definition rename_report (valid : text -> Prop) (w : elem) (x : shown) : Prop :=
  at_element SHelp w x \/
  exists new, valid new /\ Forall2 same_letter (letters (el_text w)) (letters new) /\ replaced_by SHelp new w x.

(** [w] is the name of the block that is opened by [s]. *)
Definition names_block (s w : elem) : Prop := a_node TWIG_STARTING_BLOCK s /\ In w (parts s) /\ a_token TK_WORD w.

Theorem C57_block_names_are_reported_exactly : forall dbg src t cf rules results,
  parse_src dbg src = OK (t, []) -> incl rules RULE_DEFINITIONS -> NoDup (map rl_name rules) -> In rule_block_name_snake_case rules ->
  run_rules cf rules t = Done results ->
  exactly results (txt "twig-block-name-snake-case"%string)
    (fun w => exists s, In s (elements t) /\ visible (txt "twig-block-name-snake-case"%string) s /\
                names_block s w /\ ~ snake_case false (el_text w))
    (rename_report (snake_case false)).
Proof.
  intros dbg src t cf rules results HP HI HN Hin HR.
  apply (exact_node_rule cf rules t results _ _ (fun s w => names_block s w /\ ~ snake_case false (el_text w)) _ HI HN HR Hin).
  - intros ctx e Hc He. cbn beta. destruct (cast TWIG_STARTING_BLOCK e) as [s|] eqn:C; cbn [obind].
    + apply cast_iff in C as [-> C]. pose proof (one_token TK_WORD e eq_refl (block_words _ _ _ HP e He C)) as S.
      unfold starting_block_name. destruct (support_token TK_WORD e) as [w|]; cbn [obind].
      * destruct S as [[S1 S2] S3].
        destruct (is_valid_ascii_alpha_snake_case (el_text w) false) eqn:V; cbn [negb].
        -- apply snake_ok in V. intros x [(_ & X1 & X2) N]. apply N. now rewrite (S3 x X1 X2).
        -- assert (NV : ~ snake_case false (el_text w)) by (intros X; apply snake_ok in X; rewrite X in V; discriminate V).
           exists w. split; [split; [split; auto|exact NV]|]. split; [intros y [(_ & Y1 & Y2) _]; auto|].
           destruct (try_make_snake_case (el_text w) false) as [n|] eqn:T; [|left; reflexivity].
           apply snake_new in T as [T1 T2]. right. exists n. repeat split; assumption.
      * intros x [(_ & X1 & X2) _]. exact (S x X1 X2).
    + intros x [[X _] _]. rewrite (cast_node _ _ X) in C. discriminate C.
  - intros e x [[[cs ->] _] _]. reflexivity.
  - intros e e' x [(_ & H & _) _] [(_ & H' & _) _]. apply part_parent in H, H'. congruence.
Qed.

Example C57_blocks_case :
  says (txt "twig-block-name-snake-case"%string)
    (txt "{% block fooBar %}{% endblock %}{% block foo_bar %}{% endblock %}{% block _Foo 'x' %}"%string)
  = [mkShown SHelp (Some (9, 15)) [(9, 15, txt "foo_bar"%string)]; mkShown SHelp (Some (74, 78)) []].
Proof. vm_compute. reflexivity. Qed.

(** [w] is the name of an attribute that stands directly in the starting tag [tag]. *)
Definition names_attribute (tag a w : elem) : Prop :=
  a_node HTML_ATTRIBUTE a /\ In w (parts a) /\ a_token TK_WORD w /\
  a_node HTML_STARTING_TAG tag /\ exists l, In a (parts l) /\ In l (parts tag).
(** A tag of a Twig component: any attribute name is fine. *)
Definition component (tag : elem) : Prop := exists c, In c (parts tag) /\ a_token TK_TWIG_COMPONENT_NAME c.

Lemma component_spec tag : is_twig_component tag = true <-> component tag.
Proof.
  unfold is_twig_component. rewrite support_token_parts by reflexivity. split.
  - destruct (find _ _) as [c|] eqn:F; [|discriminate]. apply find_some in F as [F1 F2]. intros _. exists c. split; [exact F1|now apply a_token_kind].
  - intros (c & F1 & F2). destruct (find _ _) eqn:F; [reflexivity|]. pose proof (find_none _ _ F c F1) as X. rewrite (token_of_true _ _ F2) in X. discriminate X.
Qed.
Lemma node_part t e k p : In e (elements t) -> a_node k e -> parent e = Some p -> In e (parts p).
Proof. intros He (cs & E) Hp. apply filter_In. split; [eapply parent_children; eauto|]. now rewrite E. Qed.
Lemma parent_is_node e p : parent e = Some p -> exists k, a_node k p.
Proof. unfold parent. destruct (el_path e) as [|c l]; [discriminate|]. intros [= <-]. eexists. eexists. reflexivity. Qed.

(** Full statement: also for attributes inside of other things in the tag; see below. *)
Theorem C57_attribute_names_are_reported_exactly_partial : forall dbg src t cf rules results,
  parse_src dbg src = OK (t, []) -> incl rules RULE_DEFINITIONS -> NoDup (map rl_name rules) -> In rule_attribute_name_kebab_case rules ->
  run_rules cf rules t = Done results ->
  exactly results (txt "html-attribute-name-kebab-case"%string)
    (fun w => exists a, In a (elements t) /\ visible (txt "html-attribute-name-kebab-case"%string) a /\
                (exists tag, names_attribute tag a w /\ ~ component tag) /\ ~ kebab_case (el_text w))
    (rename_report kebab_case).
Proof.
  intros dbg src t cf rules results HP HI HN Hin HR.
  apply (exact_node_rule cf rules t results _ _ (fun a w => (exists tag, names_attribute tag a w /\ ~ component tag) /\ ~ kebab_case (el_text w)) _ HI HN HR Hin).
  - intros ctx e Hc He. cbn beta. destruct (cast HTML_ATTRIBUTE e) as [s|] eqn:C; cbn [obind].
    2: { intros x [(tag & (X & _) & _) _]. rewrite (cast_node _ _ X) in C. discriminate C. }
    apply cast_iff in C as [-> C]. pose proof (one_token TK_WORD e eq_refl (attribute_words _ _ _ HP e He C)) as S.
    unfold attribute_name. destruct (support_token TK_WORD e) as [w|]; cbn [obind].
    2: { intros x [(tag & (_ & X1 & X2 & _) & _) _]. exact (S x X1 X2). }
    destruct S as [[S1 S2] S3]. unfold attribute_html_tag.
    assert (Up : forall tag x, names_attribute tag e x -> exists l, parent e = Some l /\ parent l = Some tag).
    { intros tag x (_ & _ & _ & _ & l & L1 & L2). exists l. split; now apply part_parent. }
    destruct (parent e) as [l|] eqn:Pl; cbn [obind]; [|intros x [(tag & X & _) _]; destruct (Up tag x X) as (l & L1 & _); discriminate L1].
    destruct (parent l) as [g|] eqn:Pg; cbn [obind]; [|intros x [(tag & X & _) _]; destruct (Up tag x X) as (l' & L1 & L2); injection L1 as <-; rewrite Pg in L2; discriminate L2].
    assert (Hl : In l (elements t)) by (apply within_elements; eapply within_parent; [apply elements_within, He|exact Pl]).
    assert (Up2 : forall tag x, names_attribute tag e x -> tag = g).
    { intros tag x X. destruct (Up tag x X) as (l' & L1 & L2). injection L1 as <-. congruence. }
    destruct (cast HTML_STARTING_TAG g) as [tag|] eqn:G; cbn [obind].
    2: { intros x [(tag & X & _) _]. pose proof (Up2 tag x X) as ->. destruct X as (_ & _ & _ & X & _). rewrite (cast_node _ _ X) in G. discriminate G. }
    apply cast_iff in G as [-> G]. pose proof (component_spec g) as CS. destruct (is_twig_component g).
    { intros x [(tag & X & N) _]. apply N. rewrite (Up2 tag x X). now apply CS. }
    assert (NA : names_attribute g e w).
    { split; [exact C|]. split; [exact S1|]. split; [exact S2|]. split; [exact G|]. exists l. split; [eapply node_part; eauto|].
      destruct (parent_is_node _ _ Pl) as (k & Kl). eapply node_part; eauto. }
    destruct (is_valid_alphanumeric_kebab_case (el_text w)) eqn:V; cbn [negb].
    + apply kebab_ok in V. intros x [(tag & (_ & X1 & X2 & _) & _) N]. apply N. now rewrite (S3 x X1 X2).
    + assert (NV : ~ kebab_case (el_text w)) by (intros X; apply kebab_ok in X; rewrite X in V; discriminate V).
      exists w. split; [split; [exists g; split; [exact NA|]; intros X; apply CS in X; discriminate X|exact NV]|].
      split; [intros y [(tag & (_ & Y1 & Y2 & _) & _) _]; auto|].
      destruct (try_make_kebab_case (el_text w)) as [n|] eqn:T; [|left; reflexivity].
      apply kebab_new in T as [T1 T2]. right. exists n. repeat split; assumption.
  - intros e x [(tag & ([cs ->] & _) & _) _]. reflexivity.
  - intros e e' x [(tag & (_ & H & _) & _) _] [(tag' & (_ & H' & _) & _) _]. apply part_parent in H, H'. congruence.
Qed.

Example C57_attributes_case :
  says (txt "html-attribute-name-kebab-case"%string)
    (txt "<div fooBar='x' data-a @click='y'></div><p b_c></p><twig:Foo fooBar='x'/>"%string)
  = [mkShown SHelp (Some (5, 11)) [(5, 11, txt "foo-bar"%string)]; mkShown SHelp (Some (43, 46)) [(43, 46, txt "b-c"%string)]].
Proof. vm_compute. reflexivity. Qed.

(** The full statement is false: nothing is said about this attribute. *)
Definition conditional_attribute : text := txt "<div {% if a %}fooBar=""x""{% endif %}></div>"%string.
Theorem C57_attribute_names_are_reported_exactly_refuted :
  ~ (forall dbg src t cf results, parse_src dbg src = OK (t, []) -> run_rules cf RULE_DEFINITIONS t = Done results ->
     forall tag a w, In tag (elements t) -> a_node HTML_STARTING_TAG tag -> ~ component tag ->
       In a (preorder_elem tag) -> a_node HTML_ATTRIBUTE a -> visible (txt "html-attribute-name-kebab-case"%string) a ->
       In w (parts a) -> a_token TK_WORD w -> ~ kebab_case (el_text w) ->
       exists r, In r results /\ rs_rule r = txt "html-attribute-name-kebab-case"%string).
Proof.
  intros H.
  destruct (H true conditional_attribute (parsed conditional_attribute) default_config [] ltac:(template) ltac:(template)
              (the conditional_attribute 2) (the conditional_attribute 19) (the conditional_attribute 20)) as (r & [] & _).
  - in_template.
  - eexists; template.
  - intros X. apply component_spec in X. vm_compute in X. discriminate X.
  - apply (nth_error_In _ 17). template.
  - eexists; template.
  - split; template.
  - apply (nth_error_In _ 0). template.
  - eexists; template.
  - intros X. apply kebab_ok in X. vm_compute in X. discriminate X.
Qed.

(** ** Variables *)

(** The things that define variables, and a variable [w] defined by [e] with its node [n]. *)
Definition defines (e n w : elem) : Prop :=
  (a_node TWIG_ASSIGNMENT e \/ a_node TWIG_FOR_BLOCK e) /\ In n (parts e) /\ a_node TWIG_LITERAL_NAME n /\ parts n = [w].
(** The expression [v] is a call of the function constant. *)
Definition constant_value (v : elem) : Prop :=
  exists c w, parts v = [c] /\ calls c w /\ el_text w = txt "constant"%string.
(** The first value of an assignment is a constant. *)
Definition constant_first (e : elem) : Prop :=
  a_node TWIG_ASSIGNMENT e /\ exists l v r, parts e = l ++ v :: r /\ a_node TWIG_EXPRESSION v /\
    (forall x, In x l -> ~ a_node TWIG_EXPRESSION x) /\ constant_value v.
Definition misnamed (is_constant : Prop) (name : text) : Prop :=
  (is_constant /\ ~ snake_case true name) \/ (~ is_constant /\ ~ camel_case name).

Section Constants.
  Context (dbg : bool) (src : text) (t : tree) (HP : parse_src dbg src = OK (t, [])).

  Lemma constant_spec e : In e (elements t) -> a_node TWIG_ASSIGNMENT e -> is_constant_assignment e = true <-> constant_first e.
  Proof.
    intros He Ke. unfold is_constant_assignment. rewrite support_child_parts.
    destruct (find (node_of TWIG_EXPRESSION) (parts e)) as [v|] eqn:F; cbn [obind].
    - assert (Sp : exists l r, parts e = l ++ v :: r /\ a_node TWIG_EXPRESSION v /\ (forall x, In x l -> ~ a_node TWIG_EXPRESSION x)).
      { revert F. induction (parts e) as [|y l IH]; [discriminate|]. cbn [find]. destruct (node_of TWIG_EXPRESSION y) eqn:N.
        - intros [= ->]. exists [], l. split; [reflexivity|]. split; [now apply a_node_kind|intros x []].
        - intros F. destruct (IH F) as (l1 & r & -> & K & Z). exists (y :: l1), r. split; [reflexivity|]. split; [exact K|].
          intros x [<-|X]; [|now apply Z]. intros X. apply node_of_true in X. rewrite X in N. discriminate N. }
      destruct Sp as (l & r & Ep & Kv & Z).
      assert (Hv : In v (elements t)) by (eapply part_element; [exact He|rewrite Ep; apply in_elt]).
      assert (CF : constant_first e <-> constant_value v).
      { split.
        - intros (_ & l' & v' & r' & E' & Kv' & Z' & CV). rewrite Ep in E'. clear - E' Kv Kv' Z Z' CV.
          revert l' E' Z'. induction l as [|y l IH]; intros [|y' l'] E' Z'; cbn [app] in E'.
          + now injection E' as -> _.
          + injection E' as -> _. destruct (Z' y' (or_introl eq_refl) Kv).
          + injection E' as <- _. destruct (Z y (or_introl eq_refl) Kv').
          + injection E' as _ E'. apply (IH (fun x X => Z x (or_intror X)) l' E'). intros x X. apply Z'. now right.
        - intros CV. split; [exact Ke|]. exists l, v, r. auto. }
      rewrite CF. destruct (expression_shape dbg src t HP v Hv Kv) as (n & k & En & Kn & _).
      assert (Hn : In n (elements t)) by (eapply part_element; [exact Hv|rewrite En; now left]).
      rewrite support_child_parts, En. cbn [find]. destruct (node_of TWIG_FUNCTION_CALL n) eqn:NF; cbn [obind].
      + apply a_node_kind in NF. destruct (name_operand_call dbg src t HP n Hn NF) as (f & args & Ef & Kf & ->). cbn [obind].
        assert (Hf : In f (elements t)) by (eapply part_element; [exact Hn|rewrite Ef; now left]).
        pose proof (operand_name_spec dbg src t HP f Hf (or_introl Kf)) as S.
        assert (CC : forall w, calls n w <-> name_word f w).
        { intros w. split; [intros (_ & f' & a' & E' & U)|intros U; split; [exact NF|exists f, args; auto]]. rewrite Ef in E'. now injection E' as <- _. }
        destruct (operand_name f) as [w|].
        * rewrite text_eqb_eq. split.
          -- intros E. exists n, w. split; [exact En|]. split; [now apply CC|exact E].
          -- intros (c & w' & Ec & Hc & E). rewrite En in Ec. injection Ec as <-. apply CC in Hc. now rewrite (name_word_fun _ _ _ S Hc).
        * split; [discriminate|]. intros (c & w' & Ec & Hc & E). rewrite En in Ec. injection Ec as <-. apply CC in Hc. destruct (S w' Hc).
      + split; [discriminate|]. intros (c & w' & Ec & (Kc & _) & _). rewrite En in Ec. injection Ec as <-. rewrite (node_of_true _ _ Kc) in NF. discriminate NF.
    - split; [discriminate|]. intros (_ & l & v & r & Ep & Kv & _). pose proof (find_none _ _ F v) as X. rewrite Ep in X.
      specialize (X (in_elt _ _ _)). rewrite (node_of_true _ _ Kv) in X. discriminate X.
  Qed.
End Constants.

(** Full statement: every variable is a constant if its own value is one, [misnamed (constant of w)];
    the code looks at the first value of an assignment only; see below. *)
Theorem C57_variable_names_are_reported_exactly_partial : forall dbg src t cf rules results,
  parse_src dbg src = OK (t, []) -> incl rules RULE_DEFINITIONS -> NoDup (map rl_name rules) -> In rule_variable_definition_naming rules ->
  run_rules cf rules t = Done results ->
  exactly results (txt "twig-variable-definition-naming"%string)
    (fun w => exists e, In e (elements t) /\ visible (txt "twig-variable-definition-naming"%string) e /\
                (exists n, defines e n w) /\ misnamed (constant_first e) (el_text w))
    (at_element SHelp).
Proof.
  intros dbg src t cf rules results HP HI HN Hin HR.
  apply (exact_rule cf rules t results HI HN HR rule_variable_definition_naming Hin (fun _ _ => eq_refl) (fun _ _ => eq_refl)
           (fun e w => (exists n, defines e n w) /\ misnamed (constant_first e) (el_text w))).
  - intros ctx e Hc He Hn.
    assert (Main : forall b, (a_node TWIG_ASSIGNMENT e \/ a_node TWIG_FOR_BLOCK e) -> (b = true <-> constant_first e) ->
      exists xs, NoDup xs /\ (forall x, In x xs <-> (exists n, defines e n x) /\ misnamed (constant_first e) (el_text x)) /\
        Forall2 (fun r x => at_element SHelp x (show r)) (check_literal_names e b) xs).
    { intros b Ke CB. unfold check_literal_names. rewrite support_children_parts.
      assert (G : forall l, NoDup l -> incl l (filter (node_of TWIG_LITERAL_NAME) (parts e)) ->
        exists xs, NoDup xs /\ (forall x, In x xs <-> (exists n, In n l /\ parts n = [x]) /\ misnamed (constant_first e) (el_text x)) /\
          Forall2 (fun r x => at_element SHelp x (show r)) (flat_map (fun node => match literal_name node with
            | None => []
            | Some t0 =>
              (if b && negb (is_valid_ascii_alpha_snake_case (el_text t0) true) then
                 [primary_note (el_start t0) (el_end t0) (txt "rename '"%string ++ el_text t0 ++ txt "' to "%string ++
                     match try_make_snake_case (el_text t0) true with Some s => s | None => txt "SCREAMING_SNAKE_CASE"%string end)
                   (create_result (txt "twig-variable-definition-naming"%string) SHelp (txt "twig constant name is not in SCREAMING_SNAKE_CASE"%string))]
               else []) ++
              (if negb b && negb (is_camel_case (el_text t0)) then
                 [primary_note (el_start t0) (el_end t0) (txt "rename '"%string ++ el_text t0 ++ txt "' to camelCase"%string)
                   (create_result (txt "twig-variable-definition-naming"%string) SHelp (txt "twig variable name is not in camelCase"%string))]
               else [])
            end) l) xs).
      { induction l as [|n l IH]; intros ND Il.
        - exists []. split; [constructor|]. split; [|constructor]. intros x. split; [intros []|intros [(n & [] & _) _]].
        - inversion ND as [|? ? N1 N2]; subst. destruct (IH N2) as (xs & X1 & X2 & X3); [intros z Z; apply Il; now right|].
          destruct (proj1 (filter_In _ _ _) (Il n (or_introl eq_refl))) as [Pn Kn]. apply a_node_kind in Kn.
          assert (Hin' : In n (elements t)) by (eapply part_element; eauto).
          destruct (literal_name_parts dbg src t HP n Hin' Kn) as (w & En & Ln & _). cbn [flat_map]. rewrite Ln.
          assert (Nw : ~ In w xs).
          { intros X. apply X2 in X as [(n' & Hn' & En') _]. apply N1.
            assert (parent w = Some n) by (apply part_parent; rewrite En; now left).
            assert (parent w = Some n') by (apply part_parent; rewrite En'; now left). congruence. }
          assert (Sem : forall x, ((exists n', In n' (n :: l) /\ parts n' = [x]) /\ misnamed (constant_first e) (el_text x)) <->
                    ((x = w /\ misnamed (constant_first e) (el_text w)) \/ In x xs)).
          { intros x. rewrite X2. split.
            - intros [(n' & [<-|H] & E) M]; [left; rewrite En in E; injection E as <-; auto|right; eauto].
            - intros [[-> M]|[(n' & H & E) M]]; split; auto; [exists n; cbn [In]; auto|exists n'; cbn [In]; auto]. }
          assert (Mw : (misnamed (constant_first e) (el_text w)) <->
                    (if b then negb (is_valid_ascii_alpha_snake_case (el_text w) true) else negb (is_camel_case (el_text w))) = true).
          { unfold misnamed. rewrite <- CB. pose proof (snake_ok (el_text w) true) as S1. pose proof (C43_camel_case_check (el_text w)) as S2.
            destruct b; rewrite negb_true_iff, <- not_true_iff_false; [rewrite S1|rewrite S2]; intuition discriminate. }
          assert (Dec : (if b then negb (is_valid_ascii_alpha_snake_case (el_text w) true) else negb (is_camel_case (el_text w))) = true \/
                        (if b then negb (is_valid_ascii_alpha_snake_case (el_text w) true) else negb (is_camel_case (el_text w))) = false)
            by (match goal with |- ?x = true \/ _ => destruct x; auto end).
          destruct Dec as [M|M].
          + exists (w :: xs). split; [constructor; assumption|]. split.
            * intros x. rewrite Sem. apply Mw in M. cbn [In]. split; [intros [<-|X]; auto|intros [[-> _]|X]; auto].
            * destruct b; cbn [andb negb app] in *; rewrite M; cbn [app]; constructor; try exact X3; reflexivity.
          + exists xs. split; [exact X1|]. split.
            * intros x. rewrite Sem. split; [auto|]. intros [[_ X]|X]; [apply Mw in X; rewrite X in M; discriminate M|exact X].
            * destruct b; cbn [andb negb app] in *; rewrite M; cbn [app]; exact X3. }
      destruct (G (filter (node_of TWIG_LITERAL_NAME) (parts e))) as (xs & X1 & X2 & X3); [apply NoDup_filter, parts_nodup|apply incl_refl|].
      exists xs. split; [exact X1|]. split; [|exact X3]. intros x. rewrite X2. split.
      - intros [(n & H & E) M]. apply filter_In in H as [H1 H2]. split; [|exact M]. exists n. split; [exact Ke|]. split; [exact H1|].
        split; [now apply a_node_kind|exact E].
      - intros [(n & _ & H1 & H2 & E) M]. split; [|exact M]. exists n. split; [|exact E]. apply filter_In. split; [exact H1|now apply node_of_true]. }
    cbn [rl_node rule_variable_definition_naming]. rewrite Hn. cbn [negb].
    assert (No : (~ a_node TWIG_ASSIGNMENT e /\ ~ a_node TWIG_FOR_BLOCK e) ->
      exists xs, NoDup xs /\ (forall x, In x xs <-> (exists n, defines e n x) /\ misnamed (constant_first e) (el_text x)) /\
        Forall2 (fun r x => at_element SHelp x (show r)) [] xs).
    { intros [N1 N2]. exists []. split; [constructor|]. split; [|constructor]. intros x. split; [intros []|]. intros [(n & [H|H] & _) _]; contradiction. }
    destruct (kind_eqb (el_kind e) TWIG_ASSIGNMENT) eqn:K1.
    { assert (Ke : a_node TWIG_ASSIGNMENT e) by (apply a_node_kind; now rewrite Hn, K1). apply kind_eqb_eq in K1. rewrite K1.
      apply Main; [now left|]. apply (constant_spec dbg src t HP e He Ke). }
    destruct (kind_eqb (el_kind e) TWIG_FOR_BLOCK) eqn:K2.
    { assert (Ke : a_node TWIG_FOR_BLOCK e) by (apply a_node_kind; now rewrite Hn, K2). apply kind_eqb_eq in K2. rewrite K2.
      apply Main; [now right|]. split; [discriminate|]. intros (X & _). discriminate (a_node_inj _ _ _ Ke X). }
    replace (match el_kind e with TWIG_ASSIGNMENT => check_literal_names e (is_constant_assignment e) | TWIG_FOR_BLOCK => check_literal_names e false | _ => [] end)
      with (@nil result).
    { apply No. split; intros X; apply a_node_kind in X; rewrite Hn in X; cbn [andb] in X; congruence. }
    destruct (el_kind e); try reflexivity; [rewrite (proj2 (kind_eqb_eq _ _) eq_refl) in K1; discriminate K1|rewrite (proj2 (kind_eqb_eq _ _) eq_refl) in K2; discriminate K2].
  - intros e x [(n & [[cs ->]|[cs ->]] & _) _]; reflexivity.
  - intros e e' x [(n & _ & H & _ & E) _] [(n' & _ & H' & _ & E') _].
    assert (parent x = Some n) by (apply part_parent; rewrite E; now left).
    assert (parent x = Some n') by (apply part_parent; rewrite E'; now left).
    apply part_parent in H, H'. congruence.
Qed.

Example C57_variables_case :
  says (txt "twig-variable-definition-naming"%string)
    (txt "{% set foo_bar, fooBar = 1, 2 %}{% set foo = constant('x') %}{% set FOO = constant('x') %}{% for Key, value in x %}{% endfor %}"%string)
  = [mkShown SHelp (Some (7, 14)) []; mkShown SHelp (Some (39, 42)) []; mkShown SHelp (Some (97, 100)) []].
Proof. vm_compute. reflexivity. Qed.

(** The full statement, with the value of each variable. *)
Definition value_of (e n v : elem) : Prop :=
  exists i, nth_error (filter (node_of TWIG_LITERAL_NAME) (parts e)) i = Some n /\
            nth_error (filter (node_of TWIG_EXPRESSION) (parts e)) i = Some v.
Definition constant_variable (e n : elem) : Prop :=
  a_node TWIG_ASSIGNMENT e /\ exists v, value_of e n v /\ constant_value v.
Lemma some_inj {A} (x y : A) : Some x = Some y -> x = y.
Proof. now intros [= ->]. Qed.
Definition two_variables : text := txt "{% set FOO, BAR = constant('x'), 1 %}"%string.
Theorem C57_variable_names_are_reported_exactly_refuted :
  ~ (forall dbg src t cf rules results,
     parse_src dbg src = OK (t, []) -> incl rules RULE_DEFINITIONS -> NoDup (map rl_name rules) -> In rule_variable_definition_naming rules ->
     run_rules cf rules t = Done results ->
     exactly results (txt "twig-variable-definition-naming"%string)
       (fun w => exists e, In e (elements t) /\ visible (txt "twig-variable-definition-naming"%string) e /\
                   exists n, defines e n w /\ misnamed (constant_variable e n) (el_text w))
       (at_element SHelp)).
Proof.
  intros H. specialize (H true two_variables (parsed two_variables) default_config RULE_DEFINITIONS [] ltac:(template) (incl_refl _) names_distinct).
  destruct H as (xs & _ & X & F); [unfold RULE_DEFINITIONS; cbn [In]; tauto|template|].
  inversion F; subst. assert (B : In (the two_variables 13) []); [|destruct B]. apply X.
  exists (the two_variables 6). split; [in_template|]. split; [split; template|].
  exists (the two_variables 11). split.
  - split; [left; eexists; template|]. split; [apply (nth_error_In _ 2); template|]. split; [eexists; template|template].
  - right. split.
    + intros (_ & v & (i & E1 & E2) & c & w & Ec & ([cs Kc] & _) & _).
      assert (N1 : filter (node_of TWIG_LITERAL_NAME) (parts (the two_variables 6)) = [the two_variables 7; the two_variables 11]) by template.
      assert (N2 : filter (node_of TWIG_EXPRESSION) (parts (the two_variables 6)) = [the two_variables 16; the two_variables 32]) by template.
      rewrite N1 in E1. rewrite N2 in E2.
      destruct i as [|[|i]]; cbn [nth_error] in E1, E2.
      * apply (f_equal (option_map el_start)) in E1. vm_compute in E1. discriminate E1.
      * pose proof (some_inj _ _ E2) as E3. rewrite <- E3 in Ec. apply (f_equal (map el_kind)) in Ec. cbn [map] in Ec.
        assert (K : el_kind c = TWIG_FUNCTION_CALL) by (unfold el_kind; now rewrite Kc). rewrite K in Ec. vm_compute in Ec. discriminate Ec.
      * apply (f_equal (option_map el_start)) in E1. destruct i; vm_compute in E1; discriminate E1.
    + intros Y. apply C43_camel_case_check in Y. vm_compute in Y. discriminate Y.
Qed.

Print Assumptions C57_block_names_are_reported_exactly.
Print Assumptions C57_attribute_names_are_reported_exactly_partial.
Print Assumptions C57_attribute_names_are_reported_exactly_refuted.
Print Assumptions C57_variable_names_are_reported_exactly_partial.
Print Assumptions C57_variable_names_are_reported_exactly_refuted.
