(** Property theorems: what the rules about directives, extends, json_encode and hash keys report,
    C58. *)
From Coq Require Import NArith String Bool Arith Lia List.
Import ListNotations.
From Verif Require Import Text Kind Regex Lexer LexerProofs ParserApi Machine TreeSpec.
From Verif Require Schema Skeleton PropShape PropSkel PropParser PropLexer PropQuotes.
From Verif Require Import Red Typed Rule Rules Naming GrammarExpr Check DefaultConfig RedFacts WalkSpec PropRun PropSelect PropNaming PropOff Found FoundRun FoundShape PropFound PropFound2.
Local Notation length := List.length (only parsing).
Local Open Scope list_scope.

(** * Directives for whole files that are not on the top level *)

(** No node has a root among its children, whether or not there are syntax errors. *)
Lemma no_inner_root k m : Skeleton.skeleton k = Some m -> PropSkel.may_occur m ROOT = false.
Proof. intros E. destruct k; try discriminate E; injection E as <-; vm_compute; reflexivity. Qed.
Lemma only_one_root dbg src t errs : parse_src dbg src = OK (t, errs) -> forall k cs cs', subtree (Node k cs) t -> ~ In (Node ROOT cs') cs.
Proof.
  intros HP k cs cs' S I. destruct (PropSkel.C45_every_tree_keeps_the_skeleton _ _ _ _ HP _ _ S) as (m & E & P).
  pose proof (PropSkel.parts_in cs ROOT cs' I ltac:(discriminate)) as Q.
  pose proof (PropSkel.may_occur_sound _ _ _ P Q) as M. rewrite (no_inner_root k m E) in M. discriminate M.
Qed.
Lemma elem_parent t e : In e (elements t) -> e = root_elem t \/ exists p, parent e = Some p /\ In p (elements t) /\ In e (children_with_tokens p).
Proof.
  intros He. destruct (parent e) as [p|] eqn:E.
  - right. exists p. split; [reflexivity|]. pose proof (parent_children _ _ _ He E) as C. split; [|exact C].
    apply within_elements. destruct (elements_within _ _ He) as [H1 H2]. destruct e as [x off [|[k o l r] path]]; [discriminate E|].
    unfold parent in E. cbn [el_path el_tree el_off cr_kind cr_left cr_right cr_off] in *. injection E as <-.
    split; cbn [rebuild el_tree el_path el_off cr_kind cr_left cr_right placed] in *; [|apply H2]. rewrite <- H1, rev_append_rev. reflexivity.
  - left. destruct (elements_within _ _ He) as [H1 H2]. destruct e as [x off [|[k o l r] path]]; [|discriminate E].
    cbn in H1, H2. subst. reflexivity.
Qed.
Lemma child_parent e x : In x (children_with_tokens e) -> parent x = Some e.
Proof. intros H. apply children_path in H as (c & _ & H). exact H. Qed.

Theorem C58_misplaced_directives_are_reported_exactly : forall dbg src t errs cf rules results,
  parse_src dbg src = OK (t, errs) -> incl rules RULE_DEFINITIONS -> NoDup (map rl_name rules) -> In rule_ignore_file_not_on_top rules ->
  run_rules cf rules t = Done results ->
  exactly results (txt "ludtwig-ignore-file-not-on-top"%string)
    (fun d => In d (elements t) /\ visible (txt "ludtwig-ignore-file-not-on-top"%string) d /\
                a_node LUDTWIG_DIRECTIVE_FILE_IGNORE d /\ ~ In d (children_with_tokens (root_elem t)))
    (at_element SError).
Proof.
  intros dbg src t errs cf rules results HP HI HN Hin HR.
  destruct (PropParser.C02_parse_lossless _ _ _ _ HP) as [RK _].
  assert (G : exactly results (txt "ludtwig-ignore-file-not-on-top"%string)
    (fun d => exists e, In e (elements t) /\ visible (txt "ludtwig-ignore-file-not-on-top"%string) e /\
                (d = e /\ a_node LUDTWIG_DIRECTIVE_FILE_IGNORE d /\ ~ In d (children_with_tokens (root_elem t)))) (at_element SError)).
  { apply (exact_node_rule cf rules t results _ _ (fun e d => d = e /\ a_node LUDTWIG_DIRECTIVE_FILE_IGNORE d /\ ~ In d (children_with_tokens (root_elem t))) _ HI HN HR Hin).
    - intros ctx e _ He. destruct (cast LUDTWIG_DIRECTIVE_FILE_IGNORE e) as [d|] eqn:C; cbn [obind].
      + apply cast_iff in C as [-> C]. destruct (elem_parent t e He) as [->|(p & -> & Hp & Hc)].
        { destruct C as (cs & E). cbn [root_elem el_tree] in E. rewrite E in RK. discriminate RK. }
        cbn [obind]. assert (R : kind_eqb (el_kind p) ROOT = true <-> p = root_elem t).
        { rewrite kind_eqb_eq. split; [|intros ->; exact RK]. intros K. destruct (elem_parent t p Hp) as [->|(pp & _ & Hpp & Hcp)]; [reflexivity|exfalso].
          destruct (parent_is_node e p (child_parent _ _ Hc)) as (k & cs & Ep). unfold el_kind in K. rewrite Ep in K. cbn [tree_kind] in K. subst k.
          pose proof (children_tree_in _ _ Hcp) as Hi. rewrite Ep in Hi.
          destruct (el_tree pp) as [k s|k cs'] eqn:Epp; [destruct Hi|]. cbn [children] in Hi.
          pose proof (element_subtree _ _ Hpp) as S. rewrite Epp in S. exact (only_one_root _ _ _ _ HP _ _ _ S Hi). }
        destruct (kind_eqb (el_kind p) ROOT) eqn:K; cbn [negb].
        * pose proof (proj1 R eq_refl) as E. rewrite E in Hc. intros x (-> & _ & X). exact (X Hc).
        * exists e. split; [|split; [|reflexivity]].
          -- split; [reflexivity|]. split; [exact C|]. intros X. apply child_parent in X. apply child_parent in Hc. rewrite Hc in X.
             assert (p = root_elem t) as Y by congruence. apply R in Y. discriminate Y.
          -- intros y (-> & _). reflexivity.
      + intros x (-> & X & _). rewrite (cast_node _ _ X) in C. discriminate C.
    - intros e x (-> & (cs & ->) & _). reflexivity.
    - intros e e' x (-> & _) (-> & _). reflexivity. }
  destruct G as (xs & X1 & X2 & X3). exists xs. split; [exact X1|]. split; [|exact X3]. intros x. rewrite X2. split.
  - intros (e & He & V & -> & K & N). auto.
  - intros (He & V & K & N). exists x. auto.
Qed.

Example C58_directives_case :
  says (txt "ludtwig-ignore-file-not-on-top"%string)
    (txt "{# ludtwig-ignore-file twig-valid-filter #}<p>{# ludtwig-ignore-file #}</p>{% if a %}{# ludtwig-ignore-file #}{% endif %}"%string)
  = [mkShown SError (Some (46, 71)) []; mkShown SError (Some (85, 110)) []].
Proof. vm_compute. reflexivity. Qed.

(** * Extends *)

Definition extends_report (x : elem) (r : shown) : Prop :=
  exists kw, In kw (parts x) /\ a_token TK_EXTENDS kw /\
    r = mkShown SWarning (Some (el_start x, el_end x)) [(el_start kw, el_end kw, txt "sw_extends"%string)].
Theorem C58_extends_tags_are_reported_exactly : forall dbg src t cf rules results,
  parse_src dbg src = OK (t, []) -> incl rules RULE_DEFINITIONS -> NoDup (map rl_name rules) -> In rule_prefer_shopware_extends rules ->
  run_rules cf rules t = Done results ->
  exactly results (txt "twig-prefer-shopware-extends"%string)
    (fun x => In x (elements t) /\ visible (txt "twig-prefer-shopware-extends"%string) x /\ a_node TWIG_EXTENDS x) extends_report.
Proof.
  intros dbg src t cf rules results HP HI HN Hin HR.
  assert (G : exactly results (txt "twig-prefer-shopware-extends"%string)
    (fun x => exists e, In e (elements t) /\ visible (txt "twig-prefer-shopware-extends"%string) e /\ (x = e /\ a_node TWIG_EXTENDS x)) extends_report).
  { apply (exact_node_rule cf rules t results _ _ (fun e x => x = e /\ a_node TWIG_EXTENDS x) _ HI HN HR Hin).
    - intros ctx e _ He. destruct (cast TWIG_EXTENDS e) as [d|] eqn:C; cbn [obind].
      + apply cast_iff in C as [-> C]. pose proof (extends_words dbg src t HP e He C) as L.
        pose proof (one_token TK_EXTENDS e eq_refl ltac:(lia)) as O. unfold extends_keyword.
        destruct (support_token TK_EXTENDS e) as [kw|]; cbn [obind].
        * exists e. split; [auto|]. split; [intros y [-> _]; reflexivity|]. exists kw. destruct O as [[O1 O2] _]. auto.
        * exfalso. destruct (filter (token_of TK_EXTENDS) (parts e)) as [|x l] eqn:F; [discriminate L|].
          assert (X : In x (filter (token_of TK_EXTENDS) (parts e))) by (rewrite F; now left). apply filter_In in X as [X1 X2].
          apply (O x X1). now apply a_token_kind.
      + intros x [-> X]. rewrite (cast_node _ _ X) in C. discriminate C.
    - intros e x (-> & (cs & ->)). reflexivity.
    - intros e e' x (-> & _) (-> & _). reflexivity. }
  destruct G as (xs & X1 & X2 & X3). exists xs. split; [exact X1|]. split; [|exact X3]. intros x. rewrite X2. split.
  - intros (e & He & V & -> & K). auto.
  - intros (He & V & K). exists x. auto.
Qed.
Example C58_extends_case :
  says (txt "twig-prefer-shopware-extends"%string) (txt "{% extends 'a' %}{% sw_extends 'a' %}"%string)
  = [mkShown SWarning (Some (0, 17)) [(3, 10, txt "sw_extends"%string)]].
Proof. vm_compute. reflexivity. Qed.

(** * json_encode and raw *)

(** The name [w] of the filter of [f] and the operand [l] it is applied to. *)
Definition applies (f l w : elem) : Prop :=
  a_node TWIG_FILTER f /\ exists b r, parts f = [l; b; r] /\ name_word r w.
(** [f] or one of the filters before it in the chain is json_encode. *)
Inductive encoded : elem -> Prop :=
| encoded_here f l w : applies f l w -> el_text w = txt "json_encode"%string -> encoded f
| encoded_before f l b r g : a_node TWIG_FILTER f -> parts f = [l; b; r] -> In g (parts l) -> a_node TWIG_FILTER g -> encoded g -> encoded f.

Lemma tree_size_part e x : In x (parts e) -> tree_size (el_tree x) < tree_size (el_tree e).
Proof.
  intros H. apply parts_children, children_tree_in in H. destruct (el_tree e) as [|k cs]; [destruct H|]. cbn [children] in H.
  cbn [tree_size]. induction cs as [|c cs IH]; [destruct H|]. cbn [fold_right]. destruct H as [->|H]; [lia|]. specialize (IH H). lia.
Qed.
Section Chains.
  Context (dbg : bool) (src : text) (t : tree) (HP : parse_src dbg src = OK (t, [])).
  Lemma chain_spec : forall n f, tree_size (el_tree f) <= n -> In f (elements t) -> a_node TWIG_FILTER f ->
    chain_contains_json_encode n f = true <-> encoded f.
  Proof.
    induction n as [|n IH]; intros f Hn Hf Kf.
    { destruct Kf as (cs & E). rewrite E in Hn. cbn in Hn. lia. }
    destruct (filter_filter_parts dbg src t HP f Hf Kf) as (l & b & r & E & Kl & _ & Kr & F1 & F2).
    cbn [chain_contains_json_encode]. rewrite F1, F2. cbn [obind].
    assert (Hl : In l (elements t)) by (eapply part_element; [exact Hf|rewrite E; cbn [In]; auto]).
    assert (Hr : In r (elements t)) by (eapply part_element; [exact Hf|rewrite E; cbn [In]; auto]).
    pose proof (operand_name_spec dbg src t HP r Hr (or_introl Kr)) as S.
    destruct (match operand_name r with Some t0 => text_eqb (el_text t0) (txt "json_encode"%string) | None => false end) eqn:J.
    - destruct (operand_name r) as [w|]; [|discriminate J]. apply text_eqb_eq in J. split; [intros _|reflexivity].
      apply encoded_here with l w; [|exact J]. split; [exact Kf|]. exists b, r. auto.
    - assert (NJ : forall l' w, applies f l' w -> el_text w <> txt "json_encode"%string).
      { intros l' w (_ & b' & r' & E' & W) X. rewrite E in E'. injection E' as <- <- <-.
        destruct (operand_name r) as [w'|]; [|exact (S w W)]. rewrite (name_word_fun _ _ _ W S) in X. apply text_eqb_eq in X. rewrite X in J. discriminate J. }
      destruct (first_part dbg src t HP l Hl (or_introl Kl)) as (n0 & k & rest & En & Kn & R).
      assert (One : forall g, In g (parts l) -> a_node TWIG_FILTER g -> g = n0).
      { intros g Hg Kg. rewrite En in Hg. destruct Hg as [<-|Hg]; [reflexivity|]. destruct R as [->|[_ (args & -> & Ka)]]; [destruct Hg|].
        destruct Hg as [<-|[]]. discriminate (a_node_inj _ _ _ Ka Kg). }
      rewrite support_child_parts. destruct (find (node_of TWIG_FILTER) (parts l)) as [g|] eqn:F; cbn [obind].
      + apply find_some in F as [F3 F4]. apply a_node_kind in F4.
        assert (Hg : In g (elements t)) by exact (part_element t l g Hl F3).
        assert (Sz : tree_size (el_tree g) <= n).
        { pose proof (tree_size_part l g F3). assert (In l (parts f)) as L by (rewrite E; cbn [In]; auto). pose proof (tree_size_part f l L). lia. }
        rewrite (IH g Sz Hg F4). split.
        * intros X. exact (encoded_before f l b r g Kf E F3 F4 X).
        * intros X. inversion X as [f' l' w A T|f' l' b' r' g' Kf' E' Hg' Kg' Eg]; subst; [destruct (NJ _ _ A T)|].
          rewrite E in E'. injection E' as <- _ _. rewrite (One g F3 F4), <- (One g' Hg' Kg'). exact Eg.
      + split; [discriminate|]. intros X. inversion X as [f' l' w A T|f' l' b' r' g' Kf' E' Hg' Kg' Eg]; subst; [destruct (NJ _ _ A T)|].
        rewrite E in E'. injection E' as <- _ _. pose proof (find_none _ _ F g' Hg') as Y. rewrite (node_of_true _ _ Kg') in Y. discriminate Y.
  Qed.
End Chains.

(** The name raw of a filter is replaced if json_encode is used before it in the same chain. *)
Theorem C58_raw_after_json_encode_is_replaced_exactly : forall dbg src t cf rules results,
  parse_src dbg src = OK (t, []) -> incl rules RULE_DEFINITIONS -> NoDup (map rl_name rules) -> In rule_json_encode_escape_js rules ->
  run_rules cf rules t = Done results ->
  exactly results (txt "twig-json-encode-escape-js"%string)
    (fun w => exists f, In f (elements t) /\ visible (txt "twig-json-encode-escape-js"%string) f /\
                (exists l, applies f l w) /\ el_text w = txt "raw"%string /\ encoded f)
    (replaced_by SWarning (txt "escape('js')"%string)).
Proof.
  intros dbg src t cf rules results HP HI HN Hin HR.
  apply (exact_node_rule cf rules t results _ _ (fun f w => (exists l, applies f l w) /\ el_text w = txt "raw"%string /\ encoded f) _ HI HN HR Hin).
  - intros ctx f _ He. destruct (cast TWIG_FILTER f) as [d|] eqn:C; cbn [obind].
    + apply cast_iff in C as [-> C]. destruct (filter_filter_parts dbg src t HP f He C) as (l & b & r & E & Kl & _ & Kr & F1 & F2).
      rewrite F2. cbn [obind]. assert (Hr : In r (elements t)) by (eapply part_element; [exact He|rewrite E; cbn [In]; auto]).
      pose proof (operand_name_spec dbg src t HP r Hr (or_introl Kr)) as S.
      assert (A : forall w, (exists l, applies f l w) <-> name_word r w).
      { intros w. split; [intros (l' & _ & b' & r' & E' & W)|intros W; exists l; split; [exact C|exists b, r; auto]]. rewrite E in E'. now injection E' as _ _ <-. }
      destruct (operand_name r) as [w|]; cbn [obind].
      * destruct (text_eqb (el_text w) (txt "raw"%string)) eqn:T; cbn [negb].
        -- apply text_eqb_eq in T. pose proof (chain_spec dbg src t HP _ f (le_n _) He C) as CS.
           destruct (chain_contains_json_encode (tree_size (el_tree f)) f); cbn [negb].
           ++ exists w. split; [split; [now apply A|split; [exact T|now apply CS]]|]. split; [|reflexivity].
              intros y (Y & _). apply A in Y. eapply name_word_fun; eauto.
           ++ intros x (_ & _ & X). apply CS in X. discriminate X.
        -- intros x (X & Y & _). apply A in X. rewrite (name_word_fun _ _ _ X S) in Y. apply text_eqb_eq in Y. rewrite Y in T. discriminate T.
      * intros x (X & _). apply A in X. exact (S x X).
    + intros x ((l & X & _) & _). rewrite (cast_node _ _ X) in C. discriminate C.
  - intros e x ((l & (cs & ->) & _) & _). reflexivity.
  - intros e e' x ((l & _ & b & r & E & W) & _) ((l' & _ & b' & r' & E' & W') & _).
    pose proof (name_word_inj _ _ _ W W') as <-.
    assert (P1 : parent r = Some e) by (apply part_parent; rewrite E; cbn [In]; auto).
    assert (P2 : parent r = Some e') by (apply part_parent; rewrite E'; cbn [In]; auto). congruence.
Qed.

Example C58_json_case :
  says (txt "twig-json-encode-escape-js"%string)
    (txt "{{ a|json_encode(0)|upper|raw }}{{ a|raw|json_encode }}{{ (a|json_encode)|raw }}"%string)
  = [mkShown SWarning (Some (26, 29)) [(26, 29, txt "escape('js')"%string)]].
Proof. vm_compute. reflexivity. Qed.

(** * Quoted hash keys *)

(** The names of Twig: a letter, an underscore or one of the characters from U+007F to U+00FF, and
    the same or digits after it. *)
Definition name_start (c : N) : Prop :=
  (97 <= c <= 122)%N \/ (65 <= c <= 90)%N \/ c = 95%N \/ (127 <= c <= 255)%N.
Definition name_char (c : N) : Prop := name_start c \/ (48 <= c <= 57)%N.
Definition plain_name (s : text) : Prop := exists c r, s = c :: r /\ name_start c /\ Forall name_char r.

Lemma name_start_class c : in_class [(97,122);(65,90);(95,95);(127,255)]%N c = true <-> name_start c.
Proof.
  unfold in_class, name_start, in_range. cbn [existsb fst snd]. rewrite !orb_true_iff, !andb_true_iff, !N.leb_le. intuition (try discriminate; try lia).
Qed.
Lemma name_char_class c : in_class [(97,122);(65,90);(48,57);(95,95);(127,255)]%N c = true <-> name_char c.
Proof.
  unfold in_class, name_char, name_start, in_range. cbn [existsb fst snd]. rewrite !orb_true_iff, !andb_true_iff, !N.leb_le. intuition (try discriminate; try lia).
Qed.
Lemma rfull_spec : forall s r, rfull r s = true <-> rmatch r s.
Proof.
  induction s as [|c s IH]; intros r; cbn [rfull]; [apply nullable_spec|]. rewrite IH. apply deriv_spec.
Qed.
Lemma plain_name_spec s : rfull TWIG_NAME_REGEX s = true <-> plain_name s.
Proof.
  rewrite rfull_spec. unfold TWIG_NAME_REGEX. split.
  - intros H. apply rseq_inv in H as (u & v & -> & H1 & H2). apply star_class in H2. inversion H1 as [|cl c Hc| | | | |]; subst.
    exists c, v. split; [reflexivity|]. split; [now apply name_start_class|]. rewrite forallb_forall in H2. apply Forall_forall. intros x Hx. now apply name_char_class, H2.
  - intros (c & r & -> & H1 & H2). apply (MSeq _ _ [c] r); [constructor; now apply name_start_class|]. apply star_class. rewrite forallb_forall.
    rewrite Forall_forall in H2. intros x Hx. now apply name_char_class, H2.
Qed.

(** Leaves are never empty. *)
Lemma leaf_text dbg src t errs : parse_src dbg src = OK (t, errs) -> forall k s, subtree (Leaf k s) t -> s <> [].
Proof.
  intros HP k s S. pose proof (PropParser.C08_leaves_refine_tokens _ _ _ _ HP) as M.
  destruct (PropLexer.C01_lex_lossless src) as (_ & N & _).
  assert (I : In (k, s) (leaves t)).
  { clear - S. remember (Leaf k s) as x eqn:E. induction S as [|k' cs c Hc _ IH].
    - subst. now left.
    - cbn [leaves]. apply in_flat_map. exists c. split; [exact Hc|]. now apply IH. }
  revert N I. induction M as [|k' tk ls ts _ _ IH|c tk ls ts _ _ _ IH]; intros N I; [destruct I| |].
  - inversion N as [|? ? N1 N2]; subst. destruct I as [I|I]; [injection I as <- <-; exact N1|exact (IH N2 I)].
  - inversion N as [|? ? N1 N2]; subst. inversion N2 as [|? ? N3 N4]; subst. destruct I as [I|I]; [|exact (IH N4 I)].
    injection I as _ <-. destruct (tk_text c); [congruence|discriminate].
Qed.

Definition trivial (e : elem) : Prop := exists k s, el_tree e = Leaf k s /\ is_trivia k = true.
Lemma filter_cons_split {A} (f : A -> bool) : forall l x r, filter f l = x :: r ->
  exists a b, l = a ++ x :: b /\ f x = true /\ (forall y, In y a -> f y = false) /\ filter f b = r.
Proof.
  induction l as [|y l IH]; intros x r E; [discriminate|]. cbn [filter] in E. destruct (f y) eqn:Fy.
  - injection E as -> <-. exists [], l. repeat split; auto. intros z [].
  - destruct (IH x r E) as (a & b & -> & Fx & Z & <-). exists (y :: a), b. repeat split; auto. intros z [<-|Hz]; auto.
Qed.

Section Strings.
  Context (dbg : bool) (src : text) (t : tree) (HP : parse_src dbg src = OK (t, [])).

  (** The quotes of a string are its first and its last part. *)
  Lemma quoted_parts e ki q1 i q2 k1 k2 : In e (elements t) -> is_node (el_tree e) = true -> Schema.known (children (el_tree e)) -> parts e = [q1; i; q2] ->
    a_token k1 q1 -> a_node ki i -> a_token k2 q2 -> Schema.junk k1 = false -> Schema.junk k2 = false ->
    opening_quote e = Some q1 /\ closing_quote e = Some q2 /\ support_child ki e = Some i /\
    range_trimmed_trivia e = (el_start q1, el_end e).
  Proof.
    intros He Hk KN E K1 Ki K2 J1 J2.
    assert (Tr : forall x, In x (children_with_tokens e) -> counts (el_tree x) = false -> trivial x).
    { intros x Hx Cx. pose proof (children_tree_in _ _ Hx) as Tx. destruct (el_tree x) as [k s|k cs] eqn:Ex; [|discriminate Cx].
      cbn [counts] in Cx. apply negb_false_iff in Cx. unfold Schema.junk in Cx. apply orb_true_iff in Cx as [Cx|Cx].
      - exists k, s. auto.
      - apply kind_eqb_eq in Cx. subst k. destruct (KN s Tx). }
    assert (Fi : find (node_of ki) (parts e) = Some i).
    { rewrite E. cbn [find]. rewrite (node_of_token _ _ _ K1), (node_of_true _ _ Ki). reflexivity. }
    unfold parts in E. destruct (filter_cons_split _ _ _ _ E) as (a & b & E1 & _ & Za & E2).
    destruct (filter_cons_split _ _ _ _ E2) as (b1 & c & -> & _ & Zb & E3).
    destruct (filter_cons_split _ _ _ _ E3) as (c1 & d & -> & _ & Zc & _).
    assert (Ta : Forall trivial a) by (apply Forall_forall; intros x Hx; apply Tr; [rewrite E1; apply in_or_app; now left|now apply Za]).
    assert (Tb : Forall trivial b1) by (apply Forall_forall; intros x Hx; apply Tr; [rewrite E1; apply in_or_app; right; right; apply in_or_app; now left|now apply Zb]).
    assert (Tc : Forall trivial c1) by (apply Forall_forall; intros x Hx; apply Tr;
      [rewrite E1; apply in_or_app; right; right; apply in_or_app; right; right; apply in_or_app; now left|now apply Zc]).
    clear E E2 E3 Za Zb Zc Tr.
    destruct K1 as (s1 & K1), K2 as (s2 & K2), Ki as (cs & Ki).
    assert (N1 : is_trivia k1 = false) by (unfold Schema.junk in J1; now apply orb_false_iff in J1).
    assert (N2 : is_trivia k2 = false) by (unfold Schema.junk in J2; now apply orb_false_iff in J2).
    assert (FT : forall l r, Forall trivial l -> find is_plain_token (l ++ r) = find is_plain_token r).
    { induction l as [|x l IH]; intros r H; [reflexivity|]. inversion H as [|? ? (k & s & X & T) H']; subst. cbn [app find].
      unfold is_plain_token at 1. unfold el_kind. rewrite X. cbn [is_node tree_kind negb andb]. rewrite T. cbn [negb]. now apply IH. }
    assert (TW : forall l r, Forall trivial l -> take_while (fun c => negb (is_node (el_tree c))) (l ++ r) = l ++ take_while (fun c => negb (is_node (el_tree c))) r /\
                 skip_while (fun c => negb (is_node (el_tree c))) (l ++ r) = skip_while (fun c => negb (is_node (el_tree c))) r).
    { induction l as [|x l IH]; intros r H; [auto|]. inversion H as [|? ? (k & s & X & T) H']; subst. cbn [app take_while skip_while]. rewrite X. cbn [is_node negb].
      destruct (IH r H') as [-> ->]. auto. }
    assert (Sub : el_start e + trees_len (map el_tree a) = el_start q1 /\ el_start q1 < el_end e).
    { destruct (PropQuotes.children_split e (map el_tree a) (el_tree q1) (map el_tree (b1 ++ i :: c1 ++ q2 :: d))) as (la & ex & lb & X1 & X2 & X3 & X4 & X5).
      { rewrite <- children_with_tokens_trees, E1, map_app. reflexivity. }
      rewrite E1 in X1. destruct (PropQuotes.app_inj_length a la (q1 :: b1 ++ i :: c1 ++ q2 :: d) (ex :: lb)) as [-> Y]; [|exact X1|].
      { rewrite <- (map_length el_tree la), X2, map_length. reflexivity. }
      injection Y as -> _. split; [now rewrite X5|]. rewrite X5. unfold el_end, el_start.
      destruct (el_tree e) as [ek es|ek ecs] eqn:Ee; [discriminate Hk|]. rewrite tree_len_node.
      assert (Ech : ecs = map el_tree la ++ Leaf k1 s1 :: map el_tree (b1 ++ i :: c1 ++ q2 :: d)).
      { pose proof (children_with_tokens_trees e) as Z. rewrite Ee in Z. cbn [children] in Z. rewrite <- Z, E1, map_app. cbn [map]. now rewrite K1. }
      rewrite Ech, trees_len_app.
      assert (s1 <> []). { apply (leaf_text dbg src t [] HP k1). rewrite <- K1. apply element_subtree. apply (part_element t e); [exact He|].
        apply filter_In. split; [rewrite E1; apply in_or_app; right; now left|]. rewrite K1. cbn [counts]. now rewrite J1. }
      assert (0 < tree_len (Leaf k1 s1)).
      { rewrite tree_len_text, tree_text_leaf. destruct s1 as [|ch s1]; [congruence|]. cbn [blen]. pose proof (utf8_len_pos ch). lia. }
      change (trees_len (Leaf k1 s1 :: map el_tree (b1 ++ i :: c1 ++ q2 :: d))) with (tree_len (Leaf k1 s1) + trees_len (map el_tree (b1 ++ i :: c1 ++ q2 :: d))). lia. }
    assert (TR : forall l r s f, Forall trivial l -> s + trees_len (map el_tree l) < f ->
              trim_trivia (l ++ q1 :: r) s f = s + trees_len (map el_tree l)).
    { induction l as [|x l IH]; intros r s f H L.
      - cbn [app trim_trivia map]. unfold el_kind. rewrite K1. cbn [is_node tree_kind negb andb]. rewrite N1. cbn. lia.
      - inversion H as [|? ? (k & sx & X & T) H']; subst. cbn [app trim_trivia]. unfold el_kind. rewrite X. cbn [is_node tree_kind negb andb]. rewrite T.
        cbn [map] in *. rewrite X in *. change (trees_len (Leaf k sx :: map el_tree l)) with (tree_len (Leaf k sx) + trees_len (map el_tree l)) in *.
        destruct (Nat.ltb_spec (s + tree_len (Leaf k sx)) f); [|lia]. rewrite IH; [lia|exact H'|lia]. }
    unfold opening_quote, closing_quote, range_trimmed_trivia. rewrite support_child_parts. rewrite E1.
    destruct (TW a (q1 :: b1 ++ i :: c1 ++ q2 :: d) Ta) as [-> ->]. cbn [take_while skip_while]. rewrite K1. cbn [is_node negb].
    destruct (TW b1 (i :: c1 ++ q2 :: d) Tb) as [-> ->]. cbn [take_while skip_while]. rewrite Ki. cbn [is_node negb].
    split; [|split; [|split]].
    - rewrite FT by exact Ta. cbn [find]. unfold is_plain_token, el_kind. rewrite K1. cbn [is_node tree_kind negb andb]. now rewrite N1.
    - cbn [find]. unfold is_plain_token at 1. rewrite Ki. cbn [is_node negb andb]. rewrite FT by exact Tc. cbn [find]. unfold is_plain_token, el_kind. rewrite K2.
      cbn [is_node tree_kind negb andb]. now rewrite N2.
    - exact Fi.
    - f_equal. destruct Sub as [S1 S2]. rewrite TR; [exact S1|exact Ta|lia].
  Qed.

  Definition quote_kind (k : kind) : Prop := k = TK_DOUBLE_QUOTES \/ k = TK_SINGLE_QUOTES.
  Lemma string_parts e : In e (elements t) -> a_node TWIG_LITERAL_STRING e ->
    exists q1 i q2 k, parts e = [q1; i; q2] /\ quote_kind k /\ a_token k q1 /\ a_node TWIG_LITERAL_STRING_INNER i /\ a_token k q2 /\
      opening_quote e = Some q1 /\ closing_quote e = Some q2 /\ twig_string_inner e = Some i /\
      range_trimmed_trivia e = (el_start q1, el_end e).
  Proof.
    intros He Hk. pose proof (parts_content e) as P. destruct (node_wf dbg src t HP _ e He Hk ltac:(discriminate)) as [_ KN].
    pose proof (node_sem dbg src t HP _ e _ He Hk ltac:(discriminate) eq_refl) as C. models.
    assert (Sh : exists q1 i q2 k, parts e = [q1; i; q2] /\ quote_kind k /\ a_token k q1 /\ a_node TWIG_LITERAL_STRING_INNER i /\ a_token k q2).
    { revert P C. generalize (Schema.content (children (el_tree e))). intros l P C. unfold quote_kind.
      destruct C as [C|C]; sem_inv; cbn [app] in P; parts_inv;
        [do 3 eexists; exists TK_DOUBLE_QUOTES|do 3 eexists; exists TK_SINGLE_QUOTES]; repeat split; eauto. }
    destruct Sh as (q1 & i & q2 & k & E & Q & K1 & Ki & K2). exists q1, i, q2, k. do 5 (split; [assumption|]).
    assert (J : Schema.junk k = false) by (destruct Q as [-> | ->]; reflexivity).
    apply (quoted_parts e TWIG_LITERAL_STRING_INNER q1 i q2 k k He); try assumption. destruct Hk as (cs & ->). reflexivity.
  Qed.
  Lemma html_string_parts e : In e (elements t) -> a_node HTML_STRING e ->
    exists i, a_node HTML_STRING_INNER i /\
    ((exists q1 q2 k, parts e = [q1; i; q2] /\ quote_kind k /\ a_token k q1 /\ a_token k q2 /\
       opening_quote e = Some q1 /\ closing_quote e = Some q2 /\ html_string_inner e = Some i /\
       range_trimmed_trivia e = (el_start q1, el_end e)) \/
     (parts e = [i] /\ opening_quote e = None /\ closing_quote e = None /\ html_string_inner e = Some i)).
  Proof.
    intros He Hk. pose proof (parts_content e) as P. destruct (node_wf dbg src t HP _ e He Hk ltac:(discriminate)) as [_ [KN _]].
    pose proof (node_sem dbg src t HP _ e _ He Hk ltac:(discriminate) eq_refl) as C. models.
    assert (Sh : exists i, a_node HTML_STRING_INNER i /\ ((exists q1 q2 k, parts e = [q1; i; q2] /\ quote_kind k /\ a_token k q1 /\ a_token k q2) \/ parts e = [i])).
    { revert P C. generalize (Schema.content (children (el_tree e))). intros l P C. unfold quote_kind.
      destruct C as [[C|C]|C]; sem_inv; cbn [app] in P; parts_inv; eexists; (split; [eassumption|]); [left|left|right; eauto];
        [do 2 eexists; exists TK_DOUBLE_QUOTES|do 2 eexists; exists TK_SINGLE_QUOTES]; repeat split; eauto. }
    destruct Sh as (i & Ki & [(q1 & q2 & k & E & Q & K1 & K2)|E]); exists i; (split; [exact Ki|]); [left|right].
    - exists q1, q2, k. do 4 (split; [assumption|]).
      assert (J : Schema.junk k = false) by (destruct Q as [-> | ->]; reflexivity).
      apply (quoted_parts e HTML_STRING_INNER q1 i q2 k k He); try assumption. destruct Hk as (cs & ->). reflexivity.
    - split; [exact E|].
      assert (NP : forall l, incl l (children_with_tokens e) -> find is_plain_token l = None).
      { intros l I. destruct (find is_plain_token l) as [x|] eqn:F; [|reflexivity]. exfalso. apply find_some in F as [F1 F2].
        unfold is_plain_token, el_kind in F2. pose proof (children_tree_in _ _ (I x F1)) as T.
        destruct (el_tree x) as [k s|k cs] eqn:X; [|discriminate F2]. cbn [is_node tree_kind negb andb] in F2. apply negb_true_iff in F2.
        destruct (Schema.junk k) eqn:J.
        - unfold Schema.junk in J. rewrite F2 in J. cbn [orb] in J. apply kind_eqb_eq in J. subst k. exact (KN s T).
        - assert (Px : In x (parts e)). { apply filter_In. split; [exact (I x F1)|]. rewrite X. cbn [counts]. now rewrite J. }
          rewrite E in Px. destruct Px as [<-|[]]. destruct Ki as (cs & Ki). rewrite Ki in X. discriminate X. }
      assert (TI : forall (f : elem -> bool) l, incl (take_while f l) l).
      { induction l as [|x l IH]; [intros x []|]. cbn [take_while]. destruct (f x); intros y H; [destruct H as [<-|H]; [now left|right; now apply IH]|destruct H]. }
      assert (SI : forall (f : elem -> bool) l, incl (skip_while f l) l).
      { induction l as [|x l IH]; [intros x []|]. cbn [skip_while]. destruct (f x); intros y H; [right; now apply IH|exact H]. }
      split; [apply NP, TI|]. split; [apply NP, SI|]. unfold html_string_inner. rewrite support_child_parts, E. cbn [find]. now rewrite (node_of_true _ _ Ki).
  Qed.
End Strings.

Definition is_node_sym (k : kind) (s : Schema.sym) : bool := match s with Schema.Nd k' => kind_eqb k' k | Schema.Tok _ => false end.
Lemma nodes_among k e : length (filter (node_of k) (parts e)) = length (filter (is_node_sym k) (Schema.content (children (el_tree e)))).
Proof.
  induction (parts_content e) as [|s x l l' H _ IH]; [reflexivity|]. cbn [filter].
  assert (E : node_of k x = is_node_sym k s).
  { destruct s as [k'|k']; destruct H as (y & H); unfold node_of, el_kind; rewrite H; reflexivity. }
  rewrite E. destruct (is_node_sym k s); cbn [List.length]; auto.
Qed.
Lemma key_strings dbg src t : parse_src dbg src = OK (t, []) -> forall key, In key (elements t) -> a_node TWIG_LITERAL_HASH_KEY key ->
  length (filter (node_of TWIG_LITERAL_STRING) (parts key)) <= 1.
Proof.
  intros HP key He Hk. rewrite nodes_among. pose proof (node_sem _ _ _ HP _ _ _ He Hk ltac:(discriminate) eq_refl) as C. models.
  revert C. match goal with |- context [Schema.content ?x] => generalize (Schema.content x) end. intros l C. sem_all; vm_compute; auto.
Qed.

(** ** The rule *)

(** The key [key] of a hash is the string [s] with one token in it, and its text is a name. *)
Definition quoted_name (key s : elem) : Prop :=
  a_node TWIG_LITERAL_HASH_KEY key /\ In s (parts key) /\ a_node TWIG_LITERAL_STRING s /\
  exists q1 i q2 c, parts s = [q1; i; q2] /\ children_with_tokens i = [c] /\ plain_name (el_text c).
(** Both quotes are removed. *)
Definition unquote_report (s : elem) (x : shown) : Prop :=
  exists q1 i q2, parts s = [q1; i; q2] /\
    x = mkShown SHelp (Some (el_start q1, el_end s)) [(el_start q1, el_end q1, []); (el_start q2, el_end q2, [])].

Lemma el_text_one e c : children_with_tokens e = [c] -> el_text e = el_text c.
Proof.
  intros E. pose proof (children_with_tokens_trees e) as T. rewrite E in T. cbn [map] in T. unfold el_text.
  destruct (el_tree e) as [k s|k cs]; [discriminate T|]. cbn [children] in T. subst cs. rewrite tree_text_node. unfold trees_text. cbn [flat_map]. apply app_nil_r.
Qed.

Theorem C58_quoted_hash_keys_are_reported_exactly : forall dbg src t cf rules results,
  parse_src dbg src = OK (t, []) -> incl rules RULE_DEFINITIONS -> NoDup (map rl_name rules) -> In rule_hash_key_no_quotes rules ->
  run_rules cf rules t = Done results ->
  exactly results (txt "twig-hash-key-no-quotes"%string)
    (fun s => exists key, In key (elements t) /\ visible (txt "twig-hash-key-no-quotes"%string) key /\ quoted_name key s)
    unquote_report.
Proof.
  intros dbg src t cf rules results HP HI HN Hin HR.
  apply (exact_node_rule cf rules t results _ _ quoted_name _ HI HN HR Hin).
  - intros ctx key _ He. destruct (cast TWIG_LITERAL_HASH_KEY key) as [d|] eqn:C; cbn [obind].
    + apply cast_iff in C as [-> C].
      pose proof (key_strings dbg src t HP key He C) as One.
      assert (G : forall s, In s (parts key) -> a_node TWIG_LITERAL_STRING s -> In s (filter (node_of TWIG_LITERAL_STRING) (parts key))).
      { intros s H1 H2. apply filter_In. split; [exact H1|now apply node_of_true]. }
      rewrite support_child_parts, find_hd. destruct (filter (node_of TWIG_LITERAL_STRING) (parts key)) as [|s [|s2 r]] eqn:F; cbn [hd_error obind].
      * intros x (_ & X1 & X2 & _). exact (G x X1 X2).
      * assert (Hs : In s (parts key) /\ a_node TWIG_LITERAL_STRING s).
        { assert (X : In s (filter (node_of TWIG_LITERAL_STRING) (parts key))) by (rewrite F; now left). apply filter_In in X as [X1 X2].
          split; [exact X1|now apply a_node_kind]. }
        destruct Hs as [Hs Ks]. assert (Hse : In s (elements t)) by exact (part_element t key s He Hs).
        assert (U : forall x, quoted_name key x -> x = s) by (intros x (_ & X1 & X2 & _); destruct (G x X1 X2) as [<-|[]]; reflexivity).
        destruct (string_parts dbg src t HP s Hse Ks) as (q1 & i & q2 & k & E & Q & K1 & Ki & K2 & -> & -> & -> & ->). cbn [obind].
        destruct (Nat.eqb (length (children_with_tokens i)) 1 && rfull TWIG_NAME_REGEX (el_text i)) eqn:T.
        -- apply andb_true_iff in T as [T1 T2]. apply Nat.eqb_eq in T1. destruct (children_with_tokens i) as [|c [|c2 cr]] eqn:Ec; try discriminate T1.
           exists s. split; [|split; [exact U|]].
           ++ split; [exact C|]. split; [exact Hs|]. split; [exact Ks|]. exists q1, i, q2, c. split; [exact E|]. split; [exact Ec|].
              rewrite <- (el_text_one i c Ec). now apply plain_name_spec.
           ++ exists q1, i, q2. split; [exact E|reflexivity].
        -- intros x X. pose proof (U x X) as ->. destruct X as (_ & _ & _ & q1' & i' & q2' & c & E' & Ec & N). rewrite E in E'. injection E' as <- <- <-.
           rewrite Ec, (el_text_one i c Ec), (proj2 (plain_name_spec _) N) in T. discriminate T.
      * cbn [List.length] in One. lia.
    + intros x (X & _). rewrite (cast_node _ _ X) in C. discriminate C.
  - intros e x ((cs & ->) & _). reflexivity.
  - intros e e' x (_ & H & _) (_ & H' & _). apply part_parent in H, H'. congruence.
Qed.

Example C58_keys_case :
  says (txt "twig-hash-key-no-quotes"%string) (txt "{{ {'foo': 1, bar: 2, 'a-b': 3, ""in"": 4, '1a': 5} }}"%string)
  = [mkShown SHelp (Some (4, 9)) [(4, 5, []); (8, 9, [])]; mkShown SHelp (Some (32, 36)) [(32, 33, []); (35, 36, [])]].
Proof. vm_compute. reflexivity. Qed.

Print Assumptions C58_misplaced_directives_are_reported_exactly.
Print Assumptions C58_extends_tags_are_reported_exactly.
Print Assumptions C58_raw_after_json_encode_is_replaced_exactly.
Print Assumptions C58_quoted_hash_keys_are_reported_exactly.
