(** Property theorems about quotation marks: C35 and C41. *)
From Coq Require Import NArith String Bool Lia Arith List.
Import ListNotations.
From Verif Require Import Text Kind LexerProofs ParserApi Machine TreeSpec PropParser Red Typed Rule Rules Check Process DefaultConfig RedFacts PropProcess PropFits PropLines.
Local Open Scope list_scope.
Local Notation length := List.length (only parsing).

(** * What is meant *)
Definition trivia_leaf (t : tree) : Prop := exists k s, t = Leaf k s /\ is_trivia k = true.
Definition leaf (t : tree) : Prop := exists k s, t = Leaf k s.
Definition texts (l : list tree) : text := concat (map tree_text l).

(** The children of a string between the quotes [a] and [b]: the node [content] and, around it,
    maybe trivia. *)
Definition quoted (t : tree) (lead : list tree) (a : N) (m1 : list tree) (content : tree) (m2 : list tree) (b : N) (trail : list tree) : Prop :=
  exists ka kb, is_trivia ka = false /\ is_trivia kb = false /\
    children t = lead ++ Leaf ka [a] :: m1 ++ content :: m2 ++ Leaf kb [b] :: trail /\
    Forall trivia_leaf lead /\ Forall leaf m1 /\ is_node content = true /\ Forall (fun x => is_node x = true \/ trivia_leaf x) m2.
(** Neither quote is there. *)
Definition unquoted (t : tree) (m1 : list tree) (content : tree) (m2 : list tree) : Prop :=
  children t = m1 ++ content :: m2 /\ Forall trivia_leaf m1 /\ is_node content = true /\
  Forall (fun x => is_node x = true \/ trivia_leaf x) m2.

(** * Children and their places *)
Lemma elems_of_split k off p : forall a left o x b, exists la ex lb,
  elems_of k off p left o (a ++ x :: b) = la ++ ex :: lb /\ map el_tree la = a /\ el_tree ex = x /\
  map el_tree lb = b /\ el_start ex = o + trees_len a.
Proof.
  induction a as [|y a IH]; intros left o x b; cbn [app elems_of].
  - exists [], (mkElem x o (mkCrumb k off left b :: p)), (elems_of k off p (x :: left) (o + tree_len x) b).
    repeat split; [apply elems_of_trees|]. cbn. lia.
  - destruct (IH (y :: left) (o + tree_len y) x b) as (la & ex & lb & E & A & B & C & D). rewrite E.
    exists (mkElem y o (mkCrumb k off left (a ++ x :: b) :: p) :: la), ex, lb. split; [reflexivity|].
    split; [cbn [map el_tree]; f_equal; exact A|]. split; [exact B|]. split; [exact C|].
    rewrite D. change (trees_len (y :: a)) with (tree_len y + trees_len a). lia.
Qed.
Lemma children_split e a x b : children (el_tree e) = a ++ x :: b -> exists la ex lb,
  children_with_tokens e = la ++ ex :: lb /\ map el_tree la = a /\ el_tree ex = x /\
  map el_tree lb = b /\ el_start ex = el_start e + trees_len a.
Proof.
  intros H. unfold children_with_tokens. destruct (el_tree e) as [k s|k cs] eqn:T.
  - destruct a; discriminate H.
  - cbn [children] in H. subst cs. apply elems_of_split.
Qed.
Lemma texts_trees l : texts l = trees_text l.
Proof. unfold texts, trees_text. rewrite flat_map_concat_map. reflexivity. Qed.
Lemma trees_len_texts l : trees_len l = blen (texts l).
Proof. rewrite texts_trees. apply trees_len_text. Qed.

Lemma app_inj_length {A} : forall (a c b d : list A), length a = length c -> a ++ b = c ++ d -> a = c /\ b = d.
Proof.
  induction a as [|x a IH]; intros [|y c] b d L E; try discriminate L; [split; [reflexivity|exact E]|].
  cbn [app] in E. injection E as -> E. cbn in L. injection L as L. destruct (IH c b d L E) as [-> ->]. split; reflexivity.
Qed.

(** * Finding the quotes *)
Lemma find_plain_trivia : forall l r, Forall trivia_leaf (map el_tree l) -> find is_plain_token (l ++ r) = find is_plain_token r.
Proof.
  induction l as [|x l IH]; intros r H; [reflexivity|]. inversion H as [|? ? (k & s & E & T) H']; subst.
  cbn [app find]. unfold is_plain_token at 1. unfold el_kind. rewrite E. cbn [is_node tree_kind negb andb]. rewrite T. cbn [negb].
  apply IH, H'.
Qed.
Lemma find_plain_inert : forall l r, Forall (fun x => is_node x = true \/ trivia_leaf x) (map el_tree l) ->
  find is_plain_token (l ++ r) = find is_plain_token r.
Proof.
  induction l as [|x l IH]; intros r H; [reflexivity|]. inversion H as [|? ? D H']; subst.
  cbn [app find]. unfold is_plain_token at 1. unfold el_kind.
  destruct D as [D|(k & s & E & T)]; [rewrite D; cbn [negb andb]; apply IH, H'|].
  rewrite E. cbn [is_node tree_kind negb andb]. rewrite T. cbn [negb]. apply IH, H'.
Qed.
Lemma take_leaves : forall l x r, Forall leaf (map el_tree l) -> is_node (el_tree x) = true ->
  take_while (fun c => negb (is_node (el_tree c))) (l ++ x :: r) = l /\
  skip_while (fun c => negb (is_node (el_tree c))) (l ++ x :: r) = x :: r.
Proof.
  induction l as [|y l IH]; intros x r H N; cbn [app take_while skip_while].
  - rewrite N. split; reflexivity.
  - inversion H as [|? ? (k & s & E) H']; subst. rewrite E. cbn [is_node negb].
    destruct (IH x r H' N) as [-> ->]. split; reflexivity.
Qed.
Lemma trivia_leaf_leaf l : Forall trivia_leaf l -> Forall leaf l.
Proof. apply Forall_impl. intros x (k & s & E & _). exists k, s. exact E. Qed.

Lemma quoted_finds e lead a m1 content m2 b trail : quoted (el_tree e) lead a m1 content m2 b trail ->
  exists o c, opening_quote e = Some o /\ closing_quote e = Some c /\
    el_text o = [a] /\ el_text c = [b] /\ el_start o = el_start e + trees_len lead /\
    el_start c = el_start e + trees_len (lead ++ Leaf TK_WORD [a] :: m1 ++ content :: m2).
Proof.
  intros (ka & kb & Ta & Tb & E & L & M1 & N & M2).
  destruct (children_split e _ _ _ E) as (la & o & l1 & C & A1 & A2 & A3 & A4).
  assert (E' : children (el_tree e) = (lead ++ Leaf ka [a] :: m1 ++ content :: m2) ++ Leaf kb [b] :: trail).
  { rewrite E, <- app_assoc. cbn [app]. rewrite <- app_assoc. reflexivity. }
  destruct (children_split e _ _ _ E') as (lc & c & ltr & C' & B1 & B2 & B3 & B4).
  apply map_eq_app in B1. destruct B1 as (x1 & x2 & -> & X1 & X2). destruct x2 as [|o' x2]; [discriminate X2|].
  cbn [map] in X2. injection X2 as X2 X3. apply map_eq_app in X3. destruct X3 as (x3 & x4 & -> & X3 & X4).
  destruct x4 as [|n x4]; [discriminate X4|]. cbn [map] in X4. injection X4 as X4 X5.
  assert (O : o' = o /\ x1 = la).
  { rewrite C in C'. rewrite <- app_assoc in C'. cbn [app] in C'.
    assert (Len : length la = length x1) by (rewrite <- (map_length el_tree la), <- (map_length el_tree x1), A1, X1; reflexivity).
    destruct (app_inj_length la x1 _ _ Len C') as [-> K]. injection K as -> _. split; reflexivity. }
  destruct O as [-> ->].
  assert (CH : children_with_tokens e = (la ++ o :: x3) ++ n :: (x4 ++ c :: ltr)).
  { rewrite C', <- !app_assoc. cbn [app]. rewrite <- app_assoc. reflexivity. }
  assert (LV : Forall leaf (map el_tree (la ++ o :: x3))).
  { rewrite map_app. cbn [map]. rewrite X1, X2, X3. apply Forall_app. split; [apply trivia_leaf_leaf, L|].
    constructor; [exists ka, [a]; reflexivity|exact M1]. }
  assert (Nn : is_node (el_tree n) = true) by (rewrite X4; exact N).
  destruct (take_leaves _ n (x4 ++ c :: ltr) LV Nn) as [Tk Sk]. rewrite <- CH in Tk, Sk.
  exists o, c. unfold opening_quote, closing_quote. rewrite Tk, Sk.
  repeat split.
  - rewrite find_plain_trivia by (rewrite X1; exact L). cbn [find]. unfold is_plain_token, el_kind. rewrite X2.
    cbn [is_node tree_kind negb andb]. rewrite Ta. reflexivity.
  - change (n :: x4 ++ c :: ltr) with ((n :: x4) ++ c :: ltr).
    rewrite find_plain_inert. 2: { cbn [map]. rewrite X4, X5. constructor; [left; exact N|exact M2]. }
    cbn [find]. unfold is_plain_token, el_kind. rewrite B2. cbn [is_node tree_kind negb andb]. rewrite Tb. reflexivity.
  - unfold el_text. rewrite A2, tree_text_leaf. reflexivity.
  - unfold el_text. rewrite B2, tree_text_leaf. reflexivity.
  - exact A4.
  - rewrite B4, !trees_len_texts. f_equal. unfold texts. rewrite !map_app, !concat_app. cbn [map concat]. rewrite !tree_text_leaf. reflexivity.
Qed.

Lemma el_text_children e : is_node (el_tree e) = true -> el_text e = texts (children (el_tree e)).
Proof.
  unfold el_text. destruct (el_tree e) as [k s|k cs]; [discriminate|]. intros _. cbn [children].
  rewrite tree_text_node, texts_trees. reflexivity.
Qed.
Lemma texts_app a b : texts (a ++ b) = texts a ++ texts b.
Proof. unfold texts. rewrite map_app, concat_app. reflexivity. Qed.
Lemma texts_cons a b : texts (a :: b) = tree_text a ++ texts b.
Proof. reflexivity. Qed.

Lemma quoted_edit q e i lead a m1 content m2 b trail r : is_node (el_tree e) = true ->
  quoted (el_tree e) lead a m1 content m2 b trail -> rs_suggestions r = [] -> contains_char q (el_text i) = false ->
  edited (el_start e) (el_text e) (rs_suggestions (change_quotes e (Some i) q r))
    (texts lead ++ [q] ++ texts (m1 ++ content :: m2) ++ [q] ++ texts trail).
Proof.
  intros Nd Q R C. destruct (quoted_finds _ _ _ _ _ _ _ _ Q) as (o & c & O1 & C1 & O2 & C2 & O3 & C3).
  unfold change_quotes. rewrite C, O1, C1. cbn [rs_suggestions add_suggestion]. rewrite R, app_nil_l.
  destruct Q as (ka & kb & _ & _ & E & _). rewrite (el_text_children e Nd), E, texts_app, texts_cons, tree_text_leaf.
  replace (m1 ++ content :: m2 ++ Leaf kb [b] :: trail) with ((m1 ++ content :: m2) ++ Leaf kb [b] :: trail)
    by (rewrite <- app_assoc; reflexivity).
  rewrite (texts_app (m1 ++ content :: m2)), (texts_cons (Leaf kb [b])), tree_text_leaf.
  set (s1 := mkSug (el_start o) (el_end o) [q] _). set (s2 := mkSug (el_start c) (el_end c) [q] _).
  replace (texts lead ++ [q] ++ texts (m1 ++ content :: m2) ++ [q] ++ texts trail)
    with (texts lead ++ sg_text s1 ++ texts (m1 ++ content :: m2) ++ sg_text s2 ++ texts trail) by reflexivity.
  apply edited_one.
  - cbn [sg_start s1]. rewrite O3, trees_len_texts. reflexivity.
  - cbn [sg_start sg_end s1]. rewrite el_end_text, O2. reflexivity.
  - apply edited_one.
    + cbn [sg_start sg_end s1 s2]. rewrite el_end_text, O2, O3, C3, !trees_len_texts, texts_app, texts_cons, tree_text_leaf, !blen_app. lia.
    + cbn [sg_start sg_end s2]. rewrite el_end_text, C2. reflexivity.
    + constructor.
Qed.

Lemma inner_found k e l1 content l2 : children (el_tree e) = l1 ++ content :: l2 -> Forall leaf l1 ->
  is_node content = true -> tree_kind content = k ->
  exists i, support_child k e = Some i /\ el_tree i = content /\ el_start i = el_start e + trees_len l1.
Proof.
  intros E L N K. destruct (children_split e _ _ _ E) as (la & i & lb & C & A1 & A2 & _ & A4).
  exists i. split; [|split; assumption]. unfold support_child, child_nodes. rewrite C. clear C E A4. revert l1 L A1.
  induction la as [|x la IH]; intros l1 L A1.
  - cbn [app filter find]. rewrite A2, N. cbn [find]. unfold el_kind. rewrite A2, K, kind_eqb_refl. reflexivity.
  - destruct l1 as [|y l1]; [discriminate A1|]. cbn [map] in A1. injection A1 as A0 A1.
    inversion L as [|? ? (ky & sy & Ey) L']; subst. cbn [app filter]. rewrite Ey. cbn [is_node].
    exact (IH (map el_tree la) L' eq_refl).
Qed.

Definition quotation_rule (cf : config) (rule : Rule.rule) (inner : kind) (q : N) (e : elem) : Prop :=
  (rule = rule_html_string_quotation /\ inner = HTML_STRING_INNER /\ q = quotation_char (html_quotation cf) /\
     exists cs, el_tree e = Node HTML_STRING cs) \/
  (rule = rule_twig_string_quotation /\ inner = TWIG_LITERAL_STRING_INNER /\ q = quotation_char (twig_quotation cf) /\
     exists cs, el_tree e = Node TWIG_LITERAL_STRING cs).
(** Strings with interpolations are never changed to single quotes. *)
Definition interpolated (rule : Rule.rule) (cf : config) (content : tree) : Prop :=
  rule = rule_twig_string_quotation /\ twig_quotation cf = QSingle /\
  exists c, In c (children content) /\ is_node c = true /\ tree_kind c = TWIG_LITERAL_STRING_INTERPOLATION.

Lemma interpolations i : Nat.ltb 0 (length (get_interpolations i)) = true ->
  exists c, In c (children (el_tree i)) /\ is_node c = true /\ tree_kind c = TWIG_LITERAL_STRING_INTERPOLATION.
Proof.
  unfold get_interpolations. destruct (support_children TWIG_LITERAL_STRING_INTERPOLATION i) as [|x l] eqn:E; [discriminate|]. intros _.
  assert (H : In x (support_children TWIG_LITERAL_STRING_INTERPOLATION i)) by (rewrite E; left; reflexivity).
  unfold support_children, child_nodes in H. apply filter_In in H. destruct H as [H K]. apply filter_In in H. destruct H as [H N].
  exists (el_tree x). split; [exact (children_tree_in i x H)|]. split; [exact N|]. apply kind_eqb_eq in K. exact K.
Qed.
Lemma rule_results cf rule inner q flag e i : quotation_rule cf rule inner q e -> support_child inner e = Some i ->
  (rl_node rule (mkCtx cf flag) e = [] /\ interpolated rule cf (el_tree i)) \/
  (exists name qq, q = quotation_char qq /\
     rl_node rule (mkCtx cf flag) e = match check_quotes name qq e (Some i) with Some r => [r] | None => [] end).
Proof.
  intros [(-> & -> & -> & cs & T)|(-> & -> & -> & cs & T)] I.
  - right. exists (txt "html-string-quotation"%string), (html_quotation cf). split; [reflexivity|].
    cbn [rl_node rule_html_string_quotation node_rule]. unfold cast, el_kind. rewrite T. cbn [is_node tree_kind].
    replace (kind_eqb HTML_STRING HTML_STRING) with true by reflexivity. cbn [andb obind cx_config]. unfold html_string_inner. rewrite I. reflexivity.
  - cbn [rl_node rule_twig_string_quotation node_rule]. unfold cast, el_kind. rewrite T. cbn [is_node tree_kind].
    replace (kind_eqb TWIG_LITERAL_STRING TWIG_LITERAL_STRING) with true by reflexivity. cbn [andb obind cx_config]. unfold twig_string_inner. rewrite I.
    destruct (twig_quotation cf) eqn:Q.
    + cbn [andb]. destruct (Nat.ltb 0 (length (get_interpolations i))) eqn:G.
      * left. split; [reflexivity|]. split; [reflexivity|]. split; [exact Q|]. apply interpolations, G.
      * right. eexists _, _. split; [reflexivity|]. reflexivity.
    + right. eexists _, _. split; [reflexivity|]. cbn [andb]. reflexivity.
Qed.

Lemma contains_char_in q s : contains_char q s = true <-> In q s.
Proof.
  unfold contains_char. rewrite existsb_exists. split.
  - intros (x & H & E). apply N.eqb_eq in E. subst. exact H.
  - intros H. exists q. split; [exact H|apply N.eqb_refl].
Qed.
Lemma rs_change_none str q r i : contains_char q (el_text i) = true -> change_quotes str (Some i) q r = r.
Proof. intros H. unfold change_quotes. rewrite H. reflexivity. Qed.

(** * C35 *)

(** A string in quotes: it is reported exactly if a quote is not the configured one; there are
    suggestions exactly if the content has no such quote; and they replace the two quotes and
    nothing else. *)
Theorem C35_quotation_changes_keep_the_content : forall cf rule inner q flag root e lead a m1 content m2 b trail,
  quotation_rule cf rule inner q e -> within root e ->
  quoted (el_tree e) lead a m1 content m2 b trail -> tree_kind content = inner -> ~ interpolated rule cf content ->
  (a = q /\ b = q /\ rl_node rule (mkCtx cf flag) e = []) \/
  (~ (a = q /\ b = q) /\ exists r, rl_node rule (mkCtx cf flag) e = [r] /\
     ((In q (tree_text content) /\ rs_suggestions r = []) \/
      (~ In q (tree_text content) /\ exists before after,
         tree_text root = before ++ (texts lead ++ [a] ++ texts (m1 ++ content :: m2) ++ [b] ++ texts trail) ++ after /\
         apply_suggestions (rs_suggestions r) (tree_text root)
         = Done (before ++ (texts lead ++ [q] ++ texts (m1 ++ content :: m2) ++ [q] ++ texts trail) ++ after)))).
Proof.
  intros cf rule inner q flag root e lead a m1 content m2 b trail QR W Q K NI.
  assert (Nd : is_node (el_tree e) = true) by (destruct QR as [(_ & _ & _ & cs & ->)|(_ & _ & _ & cs & ->)]; reflexivity).
  pose proof Q as (ka & kb & Ta & Tb & E & L & M1 & N & M2).
  assert (E2 : children (el_tree e) = (lead ++ Leaf ka [a] :: m1) ++ content :: (m2 ++ Leaf kb [b] :: trail)).
  { rewrite E, <- app_assoc. reflexivity. }
  destruct (inner_found inner e _ _ _ E2) as (i & I & Ti & _); [|exact N|exact K|].
  { apply Forall_app. split; [apply trivia_leaf_leaf, L|]. constructor; [exists ka, [a]; reflexivity|exact M1]. }
  destruct (rule_results cf rule inner q flag e i QR I) as [[_ X]|(name & qq & Eq & R)].
  { rewrite Ti in X. contradiction. }
  destruct (quoted_finds _ _ _ _ _ _ _ _ Q) as (o & c & O1 & C1 & O2 & C2 & _).
  unfold check_quotes in R. rewrite O1, C1, <- Eq in R. cbn [starts_with_char] in R. rewrite O2, C2 in R.
  destruct (N.eqb_spec a q) as [Ea|Ea]; destruct (N.eqb_spec b q) as [Eb|Eb]; cbn [negb orb] in R;
    [left; repeat split; assumption|right|right|right];
    (split; [intros [? ?]; contradiction|]); destruct (range_trimmed_trivia e) as [x y];
    (eexists; split; [exact R|]);
    (destruct (contains_char q (el_text i)) eqn:CC;
     [left; split; [apply contains_char_in in CC; unfold el_text in CC; rewrite Ti in CC; exact CC|rewrite (rs_change_none _ _ _ _ CC); reflexivity]
     |right; split; [intros H; apply contains_char_in in H; unfold el_text in CC; rewrite Ti, H in CC; discriminate CC|]]);
    (destruct (within_text root e W) as (before & after & T & Lb); exists before, after;
     assert (TX : el_text e = texts lead ++ [a] ++ texts (m1 ++ content :: m2) ++ [b] ++ texts trail);
     [rewrite (el_text_children e Nd), E, texts_app, texts_cons, tree_text_leaf;
      replace (m1 ++ content :: m2 ++ Leaf kb [b] :: trail) with ((m1 ++ content :: m2) ++ Leaf kb [b] :: trail) by (rewrite <- app_assoc; reflexivity);
      rewrite (texts_app (m1 ++ content :: m2)), (texts_cons (Leaf kb [b])), tree_text_leaf; reflexivity|];
     split; [rewrite <- TX; exact T|]; rewrite T; apply (edited_apply _ (el_start e)); [|exact Lb];
     apply (quoted_edit q e i lead a m1 content m2 b trail); [exact Nd|exact Q|reflexivity|exact CC]).
Qed.

(** A string without quotes is put in quotes, nothing is removed. *)
Lemma unquoted_finds e m1 content m2 : unquoted (el_tree e) m1 content m2 -> opening_quote e = None /\ closing_quote e = None.
Proof.
  intros (E & M1 & N & M2). destruct (children_split e _ _ _ E) as (la & n & lb & C & A1 & A2 & A3 & _).
  assert (LV : Forall leaf (map el_tree la)) by (rewrite A1; apply trivia_leaf_leaf, M1).
  assert (Nn : is_node (el_tree n) = true) by (rewrite A2; exact N).
  destruct (take_leaves la n lb LV Nn) as [Tk Sk]. rewrite <- C in Tk, Sk. unfold opening_quote, closing_quote. rewrite Tk, Sk. split.
  - rewrite <- (app_nil_r la), find_plain_trivia by (rewrite A1; exact M1). reflexivity.
  - rewrite <- (app_nil_r (n :: lb)), find_plain_inert; [reflexivity|]. cbn [map]. rewrite A2, A3. constructor; [left; exact N|exact M2].
Qed.
Theorem C35_missing_quotes_are_added : forall cf rule inner q flag root e m1 content m2,
  quotation_rule cf rule inner q e -> within root e ->
  unquoted (el_tree e) m1 content m2 -> tree_kind content = inner -> ~ interpolated rule cf content ->
  exists r, rl_node rule (mkCtx cf flag) e = [r] /\
    ((In q (tree_text content) /\ rs_suggestions r = []) \/
     (~ In q (tree_text content) /\ exists before after,
        tree_text root = before ++ (texts m1 ++ tree_text content ++ texts m2) ++ after /\
        apply_suggestions (rs_suggestions r) (tree_text root)
        = Done (before ++ (texts m1 ++ [q] ++ tree_text content ++ [q] ++ texts m2) ++ after))).
Proof.
  intros cf rule inner q flag root e m1 content m2 QR W Q K NI.
  assert (Nd : is_node (el_tree e) = true) by (destruct QR as [(_ & _ & _ & cs & ->)|(_ & _ & _ & cs & ->)]; reflexivity).
  pose proof Q as (E & M1 & N & M2).
  destruct (inner_found inner e _ _ _ E (trivia_leaf_leaf _ M1) N K) as (i & I & Ti & Si).
  destruct (rule_results cf rule inner q flag e i QR I) as [[_ X]|(name & qq & Eq & R)].
  { rewrite Ti in X. contradiction. }
  destruct (unquoted_finds _ _ _ _ Q) as [O C].
  unfold check_quotes in R. rewrite O, C, <- Eq in R. cbn [starts_with_char negb orb] in R. destruct (range_trimmed_trivia e) as [x y].
  eexists. split; [exact R|].
  destruct (contains_char q (el_text i)) eqn:CC.
  - left. split; [apply contains_char_in in CC; unfold el_text in CC; rewrite Ti in CC; exact CC|]. rewrite (rs_change_none _ _ _ _ CC). reflexivity.
  - right. split; [intros H; apply contains_char_in in H; unfold el_text in CC; rewrite Ti, H in CC; discriminate CC|].
    destruct (within_text root e W) as (before & after & T & Lb). exists before, after.
    assert (TX : el_text e = texts m1 ++ tree_text content ++ texts m2)
      by (rewrite (el_text_children e Nd), E, texts_app, texts_cons; reflexivity).
    split; [rewrite <- TX; exact T|]. rewrite T. apply (edited_apply _ (el_start e)); [|exact Lb].
    unfold change_quotes. rewrite CC, O, C. cbn [rs_suggestions add_suggestion create_result primary_note]. rewrite app_nil_l, TX.
    cbn [app].
    match goal with |- edited _ _ [?s1; ?s2] _ =>
      replace (texts m1 ++ q :: tree_text content ++ q :: texts m2) with (texts m1 ++ sg_text s1 ++ tree_text content ++ sg_text s2 ++ texts m2) by reflexivity;
      apply (edited_one _ (texts m1) [] (tree_text content ++ texts m2) s1 [s2] (tree_text content ++ sg_text s2 ++ texts m2)) end.
    + cbn [sg_start]. rewrite Si, trees_len_texts. reflexivity.
    + cbn. lia.
    + match goal with |- edited _ _ [?s2] _ => apply (edited_one _ (tree_text content) [] (texts m2) s2 [] (texts m2)) end.
      * cbn [sg_start sg_end]. rewrite el_end_text. unfold el_text. rewrite Ti. reflexivity.
      * cbn. lia.
      * constructor.
Qed.

(** The closing quote is missing (a syntax error): the opening one is replaced and the closing
    one added after the content. *)
Definition half_quoted (t : tree) (lead : list tree) (a : N) (m1 : list tree) (content : tree) (m2 : list tree) : Prop :=
  exists ka, is_trivia ka = false /\
    children t = lead ++ Leaf ka [a] :: m1 ++ content :: m2 /\
    Forall trivia_leaf lead /\ Forall leaf m1 /\ is_node content = true /\ Forall (fun x => is_node x = true \/ trivia_leaf x) m2.
Theorem C35_missing_closing_quote_is_added : forall cf rule inner q flag root e lead a m1 content m2,
  quotation_rule cf rule inner q e -> within root e ->
  half_quoted (el_tree e) lead a m1 content m2 -> tree_kind content = inner -> ~ interpolated rule cf content ->
  exists r, rl_node rule (mkCtx cf flag) e = [r] /\
    ((In q (tree_text content) /\ rs_suggestions r = []) \/
     (~ In q (tree_text content) /\ exists before after,
        tree_text root = before ++ (texts lead ++ [a] ++ texts m1 ++ tree_text content ++ texts m2) ++ after /\
        apply_suggestions (rs_suggestions r) (tree_text root)
        = Done (before ++ (texts lead ++ [q] ++ texts m1 ++ tree_text content ++ [q] ++ texts m2) ++ after))).
Proof.
  intros cf rule inner q flag root e lead a m1 content m2 QR W (ka & Ta & E & L & M1 & N & M2) K NI.
  assert (Nd : is_node (el_tree e) = true) by (destruct QR as [(_ & _ & _ & cs & ->)|(_ & _ & _ & cs & ->)]; reflexivity).
  assert (E2 : children (el_tree e) = (lead ++ Leaf ka [a] :: m1) ++ content :: m2) by (rewrite E, <- app_assoc; reflexivity).
  assert (LV0 : Forall leaf (lead ++ Leaf ka [a] :: m1)).
  { apply Forall_app. split; [apply trivia_leaf_leaf, L|]. constructor; [exists ka, [a]; reflexivity|exact M1]. }
  destruct (inner_found inner e _ _ _ E2 LV0 N K) as (i & I & Ti & Si).
  destruct (rule_results cf rule inner q flag e i QR I) as [[_ X]|(name & qq & Eq & R)].
  { rewrite Ti in X. contradiction. }
  destruct (children_split e _ _ _ E2) as (la & n & lb & C & A1 & A2 & A3 & _).
  assert (Nn : is_node (el_tree n) = true) by (rewrite A2; exact N).
  assert (LV : Forall leaf (map el_tree la)) by (rewrite A1; exact LV0).
  destruct (take_leaves la n lb LV Nn) as [Tk Sk]. rewrite <- C in Tk, Sk.
  assert (Cl : closing_quote e = None).
  { unfold closing_quote. rewrite Sk, <- (app_nil_r (n :: lb)), find_plain_inert; [reflexivity|].
    cbn [map]. rewrite A2, A3. constructor; [left; exact N|exact M2]. }
  apply map_eq_app in A1. destruct A1 as (l1 & l2 & La & X1 & X2). destruct l2 as [|o l2]; [discriminate X2|].
  cbn [map] in X2. injection X2 as X2 X3.
  assert (Op : opening_quote e = Some o).
  { unfold opening_quote. rewrite Tk, La, find_plain_trivia by (rewrite X1; exact L).
    cbn [find]. unfold is_plain_token, el_kind. rewrite X2. cbn [is_node tree_kind negb andb]. rewrite Ta. reflexivity. }
  assert (So : el_start o = el_start e + trees_len lead).
  { destruct (children_split e _ _ _ E) as (la' & o' & lb' & C' & B1 & B2 & B3 & B4).
    rewrite C, La, <- app_assoc in C'. cbn [app] in C'.
    assert (Len : length l1 = length la') by (rewrite <- (map_length el_tree l1), <- (map_length el_tree la'), X1, B1; reflexivity).
    destruct (app_inj_length l1 la' _ _ Len C') as [_ Z]. injection Z as -> _. exact B4. }
  assert (To : el_text o = [a]) by (unfold el_text; rewrite X2, tree_text_leaf; reflexivity).
  unfold check_quotes in R. rewrite Op, Cl, <- Eq in R. cbn [starts_with_char negb] in R. rewrite orb_true_r in R.
  destruct (range_trimmed_trivia e) as [x y]. eexists. split; [exact R|].
  destruct (contains_char q (el_text i)) eqn:CC.
  - left. split; [apply contains_char_in in CC; unfold el_text in CC; rewrite Ti in CC; exact CC|]. rewrite (rs_change_none _ _ _ _ CC). reflexivity.
  - right. split; [intros H; apply contains_char_in in H; unfold el_text in CC; rewrite Ti, H in CC; discriminate CC|].
    destruct (within_text root e W) as (before & after & T & Lb). exists before, after.
    assert (TX : el_text e = texts lead ++ [a] ++ texts m1 ++ tree_text content ++ texts m2)
      by (rewrite (el_text_children e Nd), E, texts_app, texts_cons, texts_app, texts_cons, tree_text_leaf; reflexivity).
    split; [rewrite <- TX; exact T|]. rewrite T. apply (edited_apply _ (el_start e)); [|exact Lb].
    unfold change_quotes. rewrite CC, Op, Cl. cbn [rs_suggestions add_suggestion create_result primary_note]. rewrite app_nil_l, TX.
    cbn [app].
    match goal with |- edited _ _ [?s1; ?s2] _ =>
      replace (texts lead ++ q :: texts m1 ++ tree_text content ++ q :: texts m2)
        with (texts lead ++ sg_text s1 ++ (texts m1 ++ tree_text content) ++ sg_text s2 ++ texts m2) by (rewrite <- app_assoc; reflexivity);
      apply (edited_one _ (texts lead) [a] (texts m1 ++ tree_text content ++ texts m2) s1 [s2] ((texts m1 ++ tree_text content) ++ sg_text s2 ++ texts m2)) end.
    + cbn [sg_start]. rewrite So, trees_len_texts. reflexivity.
    + cbn [sg_start sg_end]. rewrite el_end_text, To. reflexivity.
    + rewrite app_assoc. match goal with |- edited _ _ [?s2] _ => apply (edited_one _ (texts m1 ++ tree_text content) [] (texts m2) s2 [] (texts m2)) end.
      * cbn [sg_start sg_end]. rewrite !el_end_text, To, So, Si, !trees_len_texts, texts_app, texts_cons, tree_text_leaf.
        unfold el_text. rewrite Ti, !blen_app. lia.
      * cbn. lia.
      * constructor.
Qed.

(** * C41: quoting an attribute value keeps the value *)

(** The value of an attribute without quotes does not include the whitespace around it; so the
    text that ends up in quotes must not start with whitespace.  Refuted: the whitespace after
    the equals sign becomes a part of the value. *)
Theorem C41_quoting_keeps_the_value_refuted :
  ~ (forall src t errs e m1 content m2, parse_file true src = Done (t, errs) ->
     In e (elements t) -> el_kind e = HTML_STRING -> unquoted (el_tree e) m1 content m2 ->
     forall c s, tree_text content = c :: s -> ~ In c [9; 10; 13; 32]%N).
Proof.
  intros H.
  assert (P : match parse_file true (txt "<div id= foo></div>"%string) with
    | Done (t, errs) =>
      match find (fun e => kind_eqb (el_kind e) HTML_STRING) (elements t) with
      | Some e => el_tree e = Node HTML_STRING [Node HTML_STRING_INNER [Leaf TK_WHITESPACE [32%N]; Leaf TK_WORD (txt "foo"%string)]]
      | None => False
      end
    | Crashed => False
    end) by (vm_compute; reflexivity).
  destruct (parse_file true (txt "<div id= foo></div>"%string)) as [[t errs]|] eqn:E; [|exact P].
  destruct (find (fun e => kind_eqb (el_kind e) HTML_STRING) (elements t)) as [e|] eqn:F; [|exact P].
  apply find_some in F. destruct F as [F K]. apply kind_eqb_eq in K.
  apply (H _ _ _ e [] (Node HTML_STRING_INNER [Leaf TK_WHITESPACE [32%N]; Leaf TK_WORD (txt "foo"%string)]) [] E F K) with (c := 32%N) (s := txt "foo"%string).
  - rewrite P. repeat split; constructor.
  - reflexivity.
  - right. right. right. left. reflexivity.
Qed.
(** The same seen from outside: --fix changes the id of this element. *)
Example C41_case :
  match fix_default (txt "<div id= foo></div>"%string) with
  | Ok (fc, _, _, _) => fc_source fc = txt "<div id="" foo""></div>"%string
  | _ => False
  end.
Proof. vm_compute. reflexivity. Qed.

(** * Concrete cases for C35 *)
Definition string_of (k : kind) (t : tree) : elem :=
  match find (fun e => kind_eqb (el_kind e) k) (elements t) with Some e => e | None => root_elem t end.
Example C35_case_quoted :
  match parse_file true (txt "{{ x ~ ""it"" }}"%string) with
  | Done (t, []) =>
    let e := string_of TWIG_LITERAL_STRING t in
    let content := Node TWIG_LITERAL_STRING_INNER [Leaf TK_WORD (txt "it"%string)] in
    quoted (el_tree e) [Leaf TK_WHITESPACE [32%N]] 34 [] content [] 34 [] /\
    quotation_rule default_config rule_twig_string_quotation TWIG_LITERAL_STRING_INNER 39 e /\
    ~ interpolated rule_twig_string_quotation default_config content
  | _ => False
  end.
Proof.
  vm_compute parse_file. cbv iota zeta. vm_compute string_of. split; [|split].
  - exists TK_DOUBLE_QUOTES, TK_DOUBLE_QUOTES. repeat split; repeat constructor. exists TK_WHITESPACE, [32%N]. split; reflexivity.
  - right. repeat split. eexists. reflexivity.
  - intros (_ & _ & c & [<-|[]] & N & _). discriminate N.
Qed.
Example C35_case_unquoted :
  match parse_file true (txt "<p id=foo></p>"%string) with
  | Done (t, []) =>
    let e := string_of HTML_STRING t in
    let content := Node HTML_STRING_INNER [Leaf TK_WORD (txt "foo"%string)] in
    unquoted (el_tree e) [] content [] /\
    quotation_rule default_config rule_html_string_quotation HTML_STRING_INNER 34 e /\
    ~ interpolated rule_html_string_quotation default_config content
  | _ => False
  end.
Proof.
  vm_compute parse_file. cbv iota zeta. vm_compute string_of. split; [|split].
  - repeat split; constructor.
  - left. repeat split. eexists. reflexivity.
  - intros (_ & _ & c & [<-|[]] & N & _). discriminate N.
Qed.

Example C35_case_half_quoted :
  match parse_file true (txt "{{ ""foo"%string) with
  | Done (t, _ :: _) =>
    let e := string_of TWIG_LITERAL_STRING t in
    let content := Node TWIG_LITERAL_STRING_INNER [Leaf TK_WORD (txt "foo"%string)] in
    half_quoted (el_tree e) [Leaf TK_WHITESPACE [32%N]] 34 [] content [] /\
    quotation_rule default_config rule_twig_string_quotation TWIG_LITERAL_STRING_INNER 39 e
  | _ => False
  end.
Proof.
  vm_compute parse_file. cbv iota zeta. vm_compute string_of. split.
  - exists TK_DOUBLE_QUOTES. repeat split; repeat constructor. exists TK_WHITESPACE, [32%N]. split; reflexivity.
  - right. repeat split. eexists. reflexivity.
Qed.

Print Assumptions C35_quotation_changes_keep_the_content.
Print Assumptions C35_missing_quotes_are_added.
Print Assumptions C35_missing_closing_quote_is_added.
Print Assumptions C41_quoting_keeps_the_value_refuted.
