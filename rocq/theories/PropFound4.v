(** Property theorems: which strings the quotation rules report, C59. *)
From Coq Require Import NArith String Bool Arith Lia List.
Import ListNotations.
From Verif Require Import Text Kind Regex Lexer LexerProofs ParserApi Machine TreeSpec.
From Verif Require Schema Skeleton PropShape PropSkel PropParser PropLexer PropQuotes.
From Verif Require Import Red Typed Rule Rules Naming GrammarExpr Check DefaultConfig RedFacts WalkSpec PropRun PropSelect PropNaming PropOff Found FoundRun FoundShape PropFound PropFound2 PropFound3.
Local Notation length := List.length (only parsing).
Local Open Scope list_scope.

(** * The texts of tokens *)

(** A leaf that is neither a word nor one of the special cases of the lexer has a text its kind
    stands for. *)
Definition special (k : kind) : bool :=
  match k with TK_WORD | TK_UNKNOWN | TK_NOT | TK_IS | TK_NOT_IN | TK_IS_NOT => true | _ => false end.
Lemma leaf_in_table dbg src t errs : parse_src dbg src = OK (t, errs) -> forall k s, subtree (Leaf k s) t -> special k = false ->
  exists p, In (p, k) lex_table /\ PropLexer.describes p s.
Proof.
  intros HP k s S NS. pose proof (PropParser.C08_leaves_refine_tokens _ _ _ _ HP) as M.
  assert (I : In (k, s) (leaves t)).
  { clear - S. remember (Leaf k s) as x eqn:E. induction S as [|k' cs c Hc _ IH].
    - subst. now left.
    - cbn [leaves]. apply in_flat_map. exists c. split; [exact Hc|]. now apply IH. }
  assert (T : exists tk, In tk (lex src) /\ tk_kind tk = k /\ tk_text tk = s).
  { clear - M I NS. induction M as [|k' tk ls ts Hk _ IH|c tk ls ts _ _ _ IH]; [destruct I| |].
    - destruct I as [I|I]; [|destruct (IH I) as (x & X1 & X2); exists x; split; [now right|exact X2]].
      injection I as -> <-. destruct Hk as [->|[-> _]]; [|discriminate NS]. exists tk. split; [now left|auto].
    - destruct I as [I|I]; [|destruct (IH I) as (x & X1 & X2); exists x; split; [now do 2 right|exact X2]].
      injection I as <- _. discriminate NS. }
  destruct T as (tk & T1 & T2 & T3). apply in_split in T1 as (pre & post & T1).
  destruct (PropLexer.C09_longest_match _ _ _ _ T1) as [(U & _)|(p & k' & w & (_ & D & _ & (t1 & t2 & Et & _)) & _ & W)].
  - rewrite T2 in U. rewrite U in NS. discriminate NS.
  - destruct W as [(_ & _ & W1 & W2)|[(_ & [[W _]|[W _]])|(_ & [[W _]|[W _]])]]; try (rewrite T2 in W; rewrite W in NS; discriminate NS).
    exists p. rewrite <- T2, W1, <- T3, W2. split; [rewrite Et; apply in_elt|exact D].
Qed.
Definition quote_text (k : kind) : N := match k with TK_SINGLE_QUOTES => 39%N | _ => 34%N end.
Lemma quote_leaf dbg src t errs : parse_src dbg src = OK (t, errs) -> forall k q, quote_kind k -> In q (elements t) -> a_token k q -> el_text q = [quote_text k].
Proof.
  intros HP k q Q Hq (s & E). unfold el_text. rewrite E, tree_text_leaf.
  pose proof (element_subtree _ _ Hq) as S. rewrite E in S.
  destruct (leaf_in_table _ _ _ _ HP k s S) as (p & I & D); [destruct Q as [-> | ->]; reflexivity|].
  assert (H : forallb (fun e => negb (kind_eqb (snd e) k) || match fst e with PLit l => text_eqb (txt l) [quote_text k] | _ => false end) lex_table = true)
    by (destruct Q as [-> | ->]; vm_compute; reflexivity).
  rewrite forallb_forall in H. specialize (H _ I). cbn [fst snd] in H. rewrite (proj2 (kind_eqb_eq k k) eq_refl) in H. cbn [negb orb] in H.
  destruct p; try discriminate H. apply text_eqb_eq in H. cbn [PropLexer.describes] in D. congruence.
Qed.

(** * C59 *)

(** The quotation mark asked for. *)
Definition wanted (q : quotation) : N := match q with QSingle => 39%N | QDouble => 34%N end.
(** A report about the string [s] with the content [i], from [from]: if the content has the wanted
    quotation mark nothing is suggested; otherwise the places [a] and [b] get it. *)
Definition quote_report (q : N) (s i : elem) (from : nat) (a b : nat * nat) (x : shown) : Prop :=
  (In q (el_text i) /\ x = mkShown SHelp (Some (from, el_end s)) []) \/
  (~ In q (el_text i) /\ x = mkShown SHelp (Some (from, el_end s)) [(fst a, snd a, [q]); (fst b, snd b, [q])]).
Definition range (e : elem) : nat * nat := (el_start e, el_end e).

(** A Twig string with other quotation marks; one with interpolations needs double ones. *)
Definition interpolates (i : elem) : Prop := exists x, In x (parts i) /\ a_node TWIG_LITERAL_STRING_INTERPOLATION x.
Definition wrong_twig_string (q : quotation) (s : elem) : Prop :=
  a_node TWIG_LITERAL_STRING s /\ exists q1 i q2, parts s = [q1; i; q2] /\ el_text q1 <> [wanted q] /\ ~ (q = QSingle /\ interpolates i).
Definition twig_string_report (q : quotation) (s : elem) (x : shown) : Prop :=
  exists q1 i q2, parts s = [q1; i; q2] /\ quote_report (wanted q) s i (el_start q1) (range q1) (range q2) x.
(** An html string without quotation marks or with other ones. *)
Definition wrong_html_string (q : quotation) (s : elem) : Prop :=
  a_node HTML_STRING s /\ ((exists q1 i q2, parts s = [q1; i; q2] /\ el_text q1 <> [wanted q]) \/ exists i, parts s = [i]).
Definition html_string_report (q : quotation) (s : elem) (x : shown) : Prop :=
  (exists q1 i q2, parts s = [q1; i; q2] /\ quote_report (wanted q) s i (el_start q1) (range q1) (range q2) x) \/
  (exists i from, parts s = [i] /\ el_start s <= from <= el_end s /\ quote_report (wanted q) s i from (el_start i, el_start i) (el_end i, el_end i) x).

Lemma wanted_char q : quotation_char q = wanted q.
Proof. destruct q; reflexivity. Qed.
Lemma contains_char_in q s : contains_char q s = true <-> In q s.
Proof. apply PropQuotes.contains_char_in. Qed.
(** The quotation marks of a string are equal, so that looking at the first one is enough. *)
Lemma check_quotes_spec name q s q1 i q2 k from oi : quote_kind k -> el_text q1 = [quote_text k] -> el_text q2 = [quote_text k] ->
  opening_quote s = Some q1 -> closing_quote s = Some q2 -> oi = Some i -> range_trimmed_trivia s = (from, el_end s) ->
  match check_quotes name q s oi with
  | Some r => el_text q1 <> [wanted q] /\ quote_report (wanted q) s i from (range q1) (range q2) (show r)
  | None => el_text q1 = [wanted q]
  end.
Proof.
  intros Q T1 T2 O1 O2 -> R. unfold check_quotes. rewrite wanted_char. unfold starts_with_char. rewrite O1, O2, T1, T2, R.
  destruct (N.eqb_spec (quote_text k) (wanted q)) as [E|E]; cbn [negb orb]; [now rewrite E|].
  split; [intros X; injection X as X; contradiction|]. unfold quote_report, change_quotes. rewrite O1, O2.
  destruct (contains_char (wanted q) (el_text i)) eqn:Cc.
  - left. apply contains_char_in in Cc. split; [exact Cc|reflexivity].
  - right. split; [intros X; apply contains_char_in in X; rewrite X in Cc; discriminate Cc|reflexivity].
Qed.

Lemma trim_bounds : forall cs s e, s <= e -> s <= trim_trivia cs s e <= e.
Proof.
  induction cs as [|c cs IH]; intros s e H; cbn [trim_trivia]; [lia|]. destruct (negb (is_node (el_tree c)) && is_trivia (el_kind c)); [|lia].
  destruct (Nat.ltb_spec (s + tree_len (el_tree c)) e) as [L|L]; [pose proof (IH (s + tree_len (el_tree c)) e)|pose proof (IH s e)]; lia.
Qed.
Lemma trimmed_range s : el_start s <= fst (range_trimmed_trivia s) /\ fst (range_trimmed_trivia s) <= el_end s /\ snd (range_trimmed_trivia s) = el_end s.
Proof. unfold range_trimmed_trivia. cbn [fst snd]. pose proof (trim_bounds (children_with_tokens s) (el_start s) (el_end s)). unfold el_end, el_start in *. lia. Qed.
Theorem C59_twig_strings_are_reported_exactly : forall dbg src t cf rules results,
  parse_src dbg src = OK (t, []) -> incl rules RULE_DEFINITIONS -> NoDup (map rl_name rules) -> In rule_twig_string_quotation rules ->
  run_rules cf rules t = Done results ->
  exactly results (txt "twig-string-quotation"%string)
    (fun s => In s (elements t) /\ visible (txt "twig-string-quotation"%string) s /\ wrong_twig_string (twig_quotation cf) s)
    (twig_string_report (twig_quotation cf)).
Proof.
  intros dbg src t cf rules results HP HI HN Hin HR.
  assert (G : exactly results (txt "twig-string-quotation"%string)
    (fun s => exists e, In e (elements t) /\ visible (txt "twig-string-quotation"%string) e /\ (s = e /\ wrong_twig_string (twig_quotation cf) s))
    (twig_string_report (twig_quotation cf))).
  { apply (exact_node_rule cf rules t results _ _ (fun e s => s = e /\ wrong_twig_string (twig_quotation cf) s) _ HI HN HR Hin).
    - intros ctx s Hc He. rewrite Hc. destruct (cast TWIG_LITERAL_STRING s) as [d|] eqn:C; cbn [obind].
      + apply cast_iff in C as [-> C].
        destruct (string_parts dbg src t HP s He C) as (q1 & i & q2 & k & E & Q & K1 & Ki & K2 & O1 & O2 & Oi & R). rewrite Oi.
        assert (T1 : el_text q1 = [quote_text k]).
        { apply (quote_leaf _ _ _ _ HP k q1 Q); [|exact K1]. apply (part_element t s q1 He). rewrite E. now left. }
        assert (T2 : el_text q2 = [quote_text k]).
        { apply (quote_leaf _ _ _ _ HP k q2 Q); [|exact K2]. apply (part_element t s q2 He). rewrite E. cbn [In]. auto. }
        assert (II : Nat.ltb 0 (length (get_interpolations i)) = true <-> interpolates i).
        { unfold get_interpolations. rewrite support_children_parts. rewrite Nat.ltb_lt. split.
          - intros L. destruct (filter (node_of TWIG_LITERAL_STRING_INTERPOLATION) (parts i)) as [|x l] eqn:F; [cbn in L; lia|].
            assert (X : In x (filter (node_of TWIG_LITERAL_STRING_INTERPOLATION) (parts i))) by (rewrite F; now left).
            apply filter_In in X as [X1 X2]. exists x. split; [exact X1|now apply a_node_kind].
          - intros (x & X1 & X2). assert (X : In x (filter (node_of TWIG_LITERAL_STRING_INTERPOLATION) (parts i))).
            { apply filter_In. split; [exact X1|now apply node_of_true]. }
            destruct (filter (node_of TWIG_LITERAL_STRING_INTERPOLATION) (parts i)); [destruct X|cbn; lia]. }
        assert (W : forall x, x = s /\ wrong_twig_string (twig_quotation cf) x <-> x = s /\ el_text q1 <> [wanted (twig_quotation cf)] /\ ~ (twig_quotation cf = QSingle /\ interpolates i)).
        { intros x. split; intros [-> X]; (split; [reflexivity|]).
          - destruct X as (_ & a & b & c & E' & X). rewrite E in E'. injection E' as <- <- <-. exact X.
          - split; [exact C|]. exists q1, i, q2. auto. }
        destruct (match twig_quotation cf with QSingle => true | QDouble => false end && Nat.ltb 0 (length (get_interpolations i))) eqn:Sk.
        * apply andb_true_iff in Sk as [S1 S2]. apply II in S2. intros x X. apply W in X as (_ & _ & X). apply X. split; [|exact S2].
          destruct (twig_quotation cf); [reflexivity|discriminate S1] || (destruct (twig_quotation cf); [discriminate S1|reflexivity]).
        * assert (NI : ~ (twig_quotation cf = QSingle /\ interpolates i)).
          { intros [X1 X2]. apply II in X2. rewrite X1, X2 in Sk. discriminate Sk. }
          pose proof (check_quotes_spec (txt "twig-string-quotation"%string) (twig_quotation cf) s q1 i q2 k (el_start q1) (Some i) Q T1 T2 O1 O2 eq_refl R) as S.
          destruct (check_quotes _ _ _ _) as [r|].
          -- destruct S as [S1 S2]. exists s. split; [apply W; auto|]. split; [intros y [-> _]; reflexivity|]. exists q1, i, q2. auto.
          -- intros x X. apply W in X as (_ & X & _). exact (X S).
      + intros x (-> & X & _). rewrite (cast_node _ _ X) in C. discriminate C.
    - intros e x (-> & (cs & ->) & _). reflexivity.
    - intros e e' x (-> & _) (-> & _). reflexivity. }
  destruct G as (xs & X1 & X2 & X3). exists xs. split; [exact X1|]. split; [|exact X3]. intros x. rewrite X2. split.
  - intros (e & He & V & -> & K). auto.
  - intros (He & V & K). exists x. auto.
Qed.

Theorem C59_html_strings_are_reported_exactly : forall dbg src t cf rules results,
  parse_src dbg src = OK (t, []) -> incl rules RULE_DEFINITIONS -> NoDup (map rl_name rules) -> In rule_html_string_quotation rules ->
  run_rules cf rules t = Done results ->
  exactly results (txt "html-string-quotation"%string)
    (fun s => In s (elements t) /\ visible (txt "html-string-quotation"%string) s /\ wrong_html_string (html_quotation cf) s)
    (html_string_report (html_quotation cf)).
Proof.
  intros dbg src t cf rules results HP HI HN Hin HR.
  assert (G : exactly results (txt "html-string-quotation"%string)
    (fun s => exists e, In e (elements t) /\ visible (txt "html-string-quotation"%string) e /\ (s = e /\ wrong_html_string (html_quotation cf) s))
    (html_string_report (html_quotation cf))).
  { apply (exact_node_rule cf rules t results _ _ (fun e s => s = e /\ wrong_html_string (html_quotation cf) s) _ HI HN HR Hin).
    - intros ctx s Hc He. rewrite Hc. destruct (cast HTML_STRING s) as [d|] eqn:C; cbn [obind].
      + apply cast_iff in C as [-> C].
        destruct (html_string_parts dbg src t HP s He C) as (i & Ki & [(q1 & q2 & k & E & Q & K1 & K2 & O1 & O2 & Oi & R)|(E & O1 & O2 & Oi)]); rewrite Oi.
        * assert (T1 : el_text q1 = [quote_text k]).
          { apply (quote_leaf _ _ _ _ HP k q1 Q); [|exact K1]. apply (part_element t s q1 He). rewrite E. now left. }
          assert (T2 : el_text q2 = [quote_text k]).
          { apply (quote_leaf _ _ _ _ HP k q2 Q); [|exact K2]. apply (part_element t s q2 He). rewrite E. cbn [In]. auto. }
          assert (W : forall x, x = s /\ wrong_html_string (html_quotation cf) x <-> x = s /\ el_text q1 <> [wanted (html_quotation cf)]).
          { intros x. split; intros [-> X]; (split; [reflexivity|]).
            - destruct X as (_ & [(a & b & c & E' & X)|(a & E')]); rewrite E in E'; [|discriminate E']. injection E' as <- <- <-. exact X.
            - split; [exact C|]. left. exists q1, i, q2. auto. }
          pose proof (check_quotes_spec (txt "html-string-quotation"%string) (html_quotation cf) s q1 i q2 k (el_start q1) (Some i) Q T1 T2 O1 O2 eq_refl R) as S.
          destruct (check_quotes _ _ _ _) as [r|].
          -- destruct S as [S1 S2]. exists s. split; [apply W; auto|]. split; [intros y [-> _]; reflexivity|]. left. exists q1, i, q2. auto.
          -- intros x X. apply W in X as (_ & X). exact (X S).
        * unfold check_quotes. unfold starts_with_char. rewrite O1, O2. cbn [negb orb].
          destruct (range_trimmed_trivia s) as [from e] eqn:R. destruct (trimmed_range s) as (B1 & B2 & B3). rewrite R in B1, B2, B3. cbn [fst snd] in B1, B2, B3. subst e.
          exists s. split; [split; [reflexivity|split; [exact C|right; eauto]]|]. split; [intros y [-> _]; reflexivity|].
          right. exists i, from. split; [exact E|]. split; [lia|]. unfold change_quotes, quote_report. change (quotation_char (html_quotation cf)) with (wanted (html_quotation cf)). rewrite O1, O2.
          destruct (contains_char (wanted (html_quotation cf)) (el_text i)) eqn:Cc.
          -- left. apply contains_char_in in Cc. split; [exact Cc|reflexivity].
          -- right. split; [intros X; apply contains_char_in in X; rewrite X in Cc; discriminate Cc|reflexivity].
      + intros x (-> & X & _). rewrite (cast_node _ _ X) in C. discriminate C.
    - intros e x (-> & (cs & ->) & _). reflexivity.
    - intros e e' x (-> & _) (-> & _). reflexivity. }
  destruct G as (xs & X1 & X2 & X3). exists xs. split; [exact X1|]. split; [|exact X3]. intros x. rewrite X2. split.
  - intros (e & He & V & -> & K). auto.
  - intros (He & V & K). exists x. auto.
Qed.

Example C59_twig_case :
  says (txt "twig-string-quotation"%string) (txt "{{ ""a"" ~ 'b' ~ ""c'd"" ~ ""e#{f}"" }}"%string)
  = [mkShown SHelp (Some (3, 6)) [(3, 4, txt "'"%string); (5, 6, txt "'"%string)]; mkShown SHelp (Some (15, 20)) []].
Proof. vm_compute. reflexivity. Qed.
Example C59_html_case :
  says (txt "html-string-quotation"%string) (txt "<a b='c' d=""e"" f=g></a>"%string)
  = [mkShown SHelp (Some (5, 8)) [(5, 6, [34%N]); (7, 8, [34%N])]; mkShown SHelp (Some (17, 18)) [(17, 17, [34%N]); (18, 18, [34%N])]].
Proof. vm_compute. reflexivity. Qed.

Print Assumptions C59_twig_strings_are_reported_exactly.
Print Assumptions C59_html_strings_are_reported_exactly.
