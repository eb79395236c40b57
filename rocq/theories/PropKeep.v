(** C73: text in which white space matters, and --fix. *)
From Coq Require Import NArith String Bool Arith Lia Permutation List.
Import ListNotations.
From Verif Require Import Text Kind Regex Lexer LexerProofs ParserApi Machine TreeSpec Layout.
From Verif Require DefaultConfig PropShape PropLexer PropParser PropLines LexLayout LayoutSim PropIndent PropSkel.
From Verif Require Import Relaid Snug.
From Verif Require Import Red Typed Rule Rules Check Process RedFacts WalkSpec PropProcess PropRun PropTree PropOff Found PropFound PropFound6 Tidy Nested Rounds Settled Finish PropFinish.
Local Notation length := List.length (only parsing).
Local Open Scope list_scope.

(** An element in which white space matters. *)
Definition preformatted_element (e : elem) : Prop :=
  a_node HTML_TAG e /\ exists n, tag_name (el_tree e) = Some n /\ In n [txt "pre"; txt "textarea"; txt "script"; txt "style"]%string.

Lemma mem_text_in x l : mem_text x l = true <-> In x l.
Proof.
  unfold mem_text. rewrite existsb_exists. split.
  - intros (y & Hy & E). apply text_eqb_eq in E. now subst.
  - intros H. exists x. split; [exact H|now apply text_eqb_eq].
Qed.
Lemma preformatted_element_spec e : preformatted_element e <-> is_sensitive_tag e = true.
Proof.
  assert (Q : a_node HTML_TAG e -> is_sensitive_tag e = protects e).
  { intros (cs & E). rewrite <- protects_spec. unfold is_sensitive, el_kind. rewrite E. reflexivity. }
  split.
  - intros (A & n & E & I). rewrite (Q A). unfold protects, keeps_whitespace. destruct A as (cs & A). rewrite A in *. rewrite E. now apply mem_text_in.
  - intros S. assert (A : a_node HTML_TAG e).
    { unfold is_sensitive_tag, cast in S. destruct (is_node (el_tree e) && kind_eqb (el_kind e) HTML_TAG) eqn:K; [|discriminate S]. apply andb_true_iff in K as [K1 K2].
      apply kind_eqb_eq in K2. unfold el_kind in K2. destruct (el_tree e) as [|k cs] eqn:T; [discriminate K1|]. cbn [tree_kind] in K2. subst. exists cs. exact T. }
    split; [exact A|]. rewrite (Q A) in S. unfold protects, keeps_whitespace in S. destruct A as (cs & A). rewrite A in *. destruct (tag_name (Node HTML_TAG cs)) as [n|]; [|discriminate S].
    exists n. split; [reflexivity|now apply mem_text_in].
Qed.

(** * The elements below an element stand together *)
Lemma child_inside e x : In x (children_with_tokens e) -> el_start e <= el_start x /\ el_end x <= el_end e.
Proof.
  assert (G : forall k off p cs l o y, In y (elems_of k off p l o cs) -> o <= el_start y /\ el_end y <= o + trees_len cs).
  { induction cs as [|c cs IH]; intros l o y; cbn [elems_of In]; [tauto|]. change (trees_len (c :: cs)) with (tree_len c + trees_len cs). intros [<-|H]; [unfold el_start, el_end; cbn [el_off el_tree]; lia|].
    apply IH in H. lia. }
  unfold children_with_tokens. destruct e as [[k s|k cs] off p]; cbn [el_tree el_off el_path]; [intros []|]. intros H. apply G in H.
  unfold el_start at 1, el_end at 2. cbn [el_off el_tree]. rewrite tree_len_node. exact H.
Qed.
Lemma below_inside : forall e x, In x (preorder_elem e) -> el_start e <= el_start x /\ el_end x <= el_end e.
Proof.
  apply (elem_induction (fun e => forall x, In x (preorder_elem e) -> el_start e <= el_start x /\ el_end x <= el_end e)).
  intros e IH x. rewrite preorder_elem_unfold. intros [<-|H]; [lia|]. apply in_flat_map in H as (y & Hy & H). specialize (IH y Hy x H). apply child_inside in Hy. lia.
Qed.
Lemma siblings_apart e x y : In x (children_with_tokens e) -> In y (children_with_tokens e) -> x = y \/ el_end x <= el_start y \/ el_end y <= el_start x.
Proof.
  intros Hx Hy. pose proof (children_sorted e) as S. induction S as [|z l S IH F]; [destruct Hx|]. rewrite Forall_forall in F.
  destruct Hx as [<-|Hx], Hy as [<-|Hy]; auto; [right; left; apply F; exact Hy|right; right; apply F; exact Hx].
Qed.
Lemma token_outside : forall r e x, In e (preorder_elem r) -> In x (preorder_elem r) -> is_node (el_tree x) = false ->
  In x (preorder_elem e) \/ el_end x <= el_start e \/ el_end e <= el_start x.
Proof.
  apply (elem_induction (fun r => forall e x, In e (preorder_elem r) -> In x (preorder_elem r) -> is_node (el_tree x) = false ->
    In x (preorder_elem e) \/ el_end x <= el_start e \/ el_end e <= el_start x)).
  intros r IH e x He Hx Nx. rewrite preorder_elem_unfold in He. destruct He as [<-|He]; [now left|].
  apply in_flat_map in He as (y & Hy & He). rewrite preorder_elem_unfold in Hx. destruct Hx as [<-|Hx].
  - exfalso. unfold children_with_tokens in Hy. destruct (el_tree r); [destruct Hy|discriminate Nx].
  - apply in_flat_map in Hx as (z & Hz & Hx). pose proof (below_inside y e He). pose proof (below_inside z x Hx).
    destruct (siblings_apart r y z Hy Hz) as [<-|[A|A]]; [now apply (IH y Hy)|right; right; lia|right; left; lia].
Qed.

(** * Protection *)
(** No such element is inside of [e]. *)
Definition outright (t : tree) (e : elem) : Prop := forall y, In y (elements t) -> In e (tl (lineage y)) -> ~ preformatted_element y.
Lemma outright_protects t e x : In e (elements t) -> preformatted_element e -> outright t e -> In x (preorder_elem e) -> indent_protected x = true.
Proof.
  intros He Pe Oe Hx. unfold indent_protected. apply flag_spec. exists e. split; [destruct (lineage_below e x Hx) as (l & ->); apply in_or_app; right; rewrite lineage_cons; now left|].
  split; [now apply preformatted_element_spec|]. intros (b & s & y & Hb & Hae & Hs & Hy & My & _).
  assert (Wx : In x (elements t)) by (apply within_elements; eapply preorder_within_elem; [apply elements_within; exact He|exact Hx]).
  assert (Wb : within t b) by (eapply lineage_inside; eauto).
  unfold left_siblings in Hs. destruct (parent b) as [p|] eqn:Q; [|destruct Hs]. assert (Hs' : In s (children_with_tokens p)) by (rewrite <- (firstn_skipn (left_count b)); apply in_or_app; now left).
  assert (Wp : within t p) by (eapply within_parent; eauto).
  apply preformatted_element_spec in My. refine (Oe y _ _ My).
  - apply within_elements. eapply preorder_within_elem; [|exact Hy]. eapply within_children; eauto.
  - destruct (lineage_below_strict p s y Hs' Hy) as (l & ->). cbn [tl]. apply in_or_app. right. rewrite lineage_cons, Q in Hae. exact Hae.
Qed.

(** * Edits that leave a part alone *)
Lemma edited_around : forall edits pos a m b new, edited pos (a ++ m ++ b) edits new ->
  Forall (fun s => sg_end s <= pos + blen a \/ pos + blen a + blen m <= sg_start s) edits ->
  exists e1 e2 a' b', edits = e1 ++ e2 /\ new = a' ++ m ++ b' /\ edited pos a e1 a' /\ edited (pos + blen a + blen m) b e2 b'.
Proof.
  induction edits as [|s edits IH]; intros pos a m b new D F; remember (a ++ m ++ b) as T eqn:Q; inversion D as [|? keep old rest ? ? n S1 S2 D' E1 E2]; [subst|rewrite Q in E2; clear Q D; rename E2 into Q].
  - exists [], [], a, b. repeat split; constructor.
  - inversion F as [|? ? C F']; subst. destruct C as [C|C].
    + assert (X : (keep ++ old) ++ rest = a ++ m ++ b) by (rewrite <- app_assoc; exact Q). destruct (blen_prefix (keep ++ old) rest a (m ++ b) X) as (a2 & -> & ->); [rewrite blen_app; lia|].
      assert (P : sg_end s + blen a2 = pos + blen ((keep ++ old) ++ a2)) by (rewrite !blen_app; lia).
      destruct (IH (sg_end s) a2 m b n) as (e1 & e2 & a' & b' & -> & -> & D1 & D2); [exact D'|rewrite P; exact F'|].
      exists (s :: e1), e2, (keep ++ sg_text s ++ a'), b'. split; [reflexivity|]. split; [now rewrite <- !app_assoc|]. split; [rewrite <- app_assoc; now constructor|]. rewrite <- P. exact D2.
    + assert (X : (a ++ m) ++ b = keep ++ old ++ rest) by (rewrite <- app_assoc; symmetry; exact Q). destruct (blen_prefix (a ++ m) b keep (old ++ rest) X) as (k2 & -> & ->); [rewrite blen_app; lia|].
      exists [], (s :: edits), a, (k2 ++ sg_text s ++ n). split; [reflexivity|]. split; [now rewrite <- !app_assoc|]. split; [constructor|]. rewrite !blen_app in S1. constructor; [lia|lia|exact D'].
Qed.
Lemma indent_edit_prefix a b s : PropIndent.indent_edit (a ++ b) s -> sg_end s <= blen a -> PropIndent.indent_edit a s.
Proof.
  intros (p & o & q & E & L & O & T & S1 & S2) H. assert (X : (p ++ o) ++ q = a ++ b) by (rewrite <- app_assoc; symmetry; exact E).
  destruct (blen_prefix (p ++ o) q a b X) as (q2 & -> & ->); [rewrite blen_app; lia|]. exists p, o, q2. rewrite <- app_assoc. repeat split; auto.
Qed.
Lemma edited_bound : forall edits pos t new, edited pos t edits new -> Forall (fun s => sg_end s <= pos + blen t) edits.
Proof.
  induction 1 as [|pos keep old rest s edits new S1 S2 D IH]; [constructor|]. rewrite !blen_app. constructor; [lia|]. eapply Forall_impl; [|exact IH]. cbn beta. intros x Hx. lia.
Qed.

(** With the indentation rule alone an element in which white space matters, and which has no other such
    element inside, is kept as it is, and what is before it has the same lines. *)
Theorem C73_indentation_keeps_preformatted_elements_partial : forall dbg sort cf inspect write_ok src t e effects o new,
  sorts sort -> stable sort -> (forall l, sort l <> Crashed) -> 0 < cf_indentation_count cf ->
  parse_file dbg src = Done (t, []) -> directives_elsewhere t -> no_interpolation src ->
  In e (elements t) -> preformatted_element e -> outright t e ->
  run_analysis dbg sort cf true inspect write_ok [rule_indentation] src = (effects, o) -> In (WriteFile new) effects ->
  exists a b a' b', src = a ++ el_text e ++ b /\ blen a = el_start e /\ new = a' ++ el_text e ++ b' /\ same_lines a a'.
Proof.
  intros dbg sort cf inspect write_ok src t e effects o new So St NC Cnt Pf ND NI He Pe Oe A W.
  set (rules := [rule_indentation]) in *.
  assert (I : incl rules PropIndent.layout_rules) by (intros r [<-|[]]; now left).
  assert (N : NoDup (map rl_name rules)) by (constructor; [intros []|constructor]).
  pose proof (parsed dbg src t Pf) as P. destruct (active_rules rules I N t) as [IA NA].
  destruct (PropSkel.C14_rules_never_crash cf _ _ _ _ (active rules t) Pf) as (rs & R).
  { intros r Hr. destruct (IA r Hr) as [<-|[<-|[]]]; cbn [In RULE_DEFINITIONS]; tauto. }
  assert (S : state dbg cf (active rules t) src t rs) by (split; [exact P|auto]).
  assert (NW : forall b fc rs, ~ In (WriteFile new) (produce_diagnostics b fc rs ++ [Send OutputStderrMessage])).
  { intros b fc rs0 H. unfold produce_diagnostics in H. rewrite !in_app_iff, !in_map_iff in H.
    destruct H as [[H|[(x & H & _)|(x & H & _)]]|[H|[]]]; try discriminate H. destruct b; [destruct H as [H|[]]; discriminate H|destruct H]. }
  unfold run_analysis in A. rewrite Pf in A. fold (active rules t) in A. rewrite R in A. unfold iteratively_apply_suggestions in A.
  destruct (rule_suggestions rs) as [|x l] eqn:E.
  { cbn [fix_loop] in A. rewrite E in A. injection A as <- _. destruct (NW _ _ _ W). }
  assert (Sub : ~ In rule_whitespace_between_line_breaks (active rules t)).
  { intros H. unfold active, get_file_active_rules in H. destruct (disabled_rules _ _) as [dis|]; [|destruct H]. apply filter_In in H as [[H|[]] _].
    apply (f_equal rl_name) in H. revert H. vm_compute. intros H. discriminate H. }
  assert (Ne : rule_suggestions rs <> []) by (rewrite E; intros H; discriminate H).
  destruct (one_round dbg sort cf (active rules t) So St NC IA NA Cnt src t rs 9 0 false S Ne) as (w & t' & rs' & (P' & ND' & NI' & R') & _ & L & No & _ & chosen & Ed & Ind & From).
  assert (Em : rule_suggestions rs' = []).
  { destruct (rule_suggestions rs') as [|p l'] eqn:E'; [reflexivity|]. exfalso. assert (Hp : In p (rule_suggestions rs')) by (rewrite E'; now left).
    destruct (either_name dbg w t' cf (active rules t) rs' P' ND' IA NA R' p Hp) as [X|X]; [exact (No p Hp X)|].
    apply Sub. apply (only_of t' cf (active rules t) rs' IA R' rule_whitespace_between_line_breaks p); [right; now left|exact Hp|exact X]. }
  match type of A with context [fix_loop ?d ?s ?c 10 ?i ?f ?r ?b] => change (fix_loop d s c 10 i f r b) with (fix_loop dbg sort cf 10 0 (mkFile src t [] (active rules t)) rs false) in A end.
  rewrite L in A. cbn [fix_loop] in A. rewrite Em in A. cbn [fc_source] in A.
  assert (Ew : w = new).
  { destruct write_ok; injection A as <- _; destruct W as [W|W]; try (now injection W); [destruct (NW _ _ _ W)|destruct W]. }
  subst w. clear A W NW.
  destruct (within_text t e (elements_within _ _ He)) as (a & b & Et & La). rewrite (proj2 (PropParser.C02_parse_lossless dbg src t [] P)) in Et.
  destruct (edited_around chosen 0 a (el_text e) b new) as (e1 & e2 & a' & b' & Ee & En & D1 & _); [rewrite <- Et; exact Ed| |].
  - apply Forall_forall. intros s Hs. destruct (From s Hs) as (p & Hp & <-).
    destruct (either_name dbg src t cf (active rules t) rs P ND IA NA R p Hp) as [X|X].
    2: { exfalso. apply Sub. apply (only_of t cf (active rules t) rs IA R rule_whitespace_between_line_breaks p); [right; now left|exact Hp|exact X]. }
    destruct (indentation_sug dbg src t cf (active rules t) rs P ND IA NA R p Hp X) as (y & LO & Tp). pose proof (line_out_token t cf y LO) as Hy.
    destruct (token_in dbg src t P y Hy) as (Iy & Ny & Ly). destruct LO as (_ & Pr & _). unfold trip, line_edit in Tp. injection Tp as T1 T2 _.
    assert (Le : blen (leading y) <= blen (el_text y)) by (unfold leading; destruct (kind_eqb (el_kind y) TK_WHITESPACE); [lia|cbn [blen]; lia]).
    pose proof (el_end_text y) as Ey. pose proof (el_end_text e) as Eee.
    destruct (token_outside (root_elem t) e y He Iy Ny) as [Z|[Z|Z]]; [rewrite (outright_protects t e y He Pe Oe Z) in Pr; discriminate Pr|left; lia|right; lia].
  - exists a, b, a', b'. split; [exact Et|]. split; [exact La|]. split; [exact En|].
    pose proof (PropIndent.edited_same_lines e1 [] a a' D1) as SL. cbn [app] in SL. apply SL.
    apply edited_bound in D1. rewrite Ee in Ind. apply Forall_app in Ind as [Ind _]. rewrite Forall_forall in *. intros s Hs. apply (indent_edit_prefix a (el_text e ++ b)); [rewrite <- Et; auto|]. apply (D1 s Hs).
Qed.

(** * A case *)
Definition texts_of (f : elem -> bool) (t : tree) : list text := map el_text (filter f (elements t)).
Definition poem : text :=
  txt "<div>"%string ++ [10%N] ++ txt "<pre> a"%string ++ [10%N] ++ txt "  b{{ c }}"%string ++ [10%N] ++ txt "  </pre>"%string ++ [10%N] ++ txt "d</div>"%string.
Definition poem_indented : text :=
  txt "<div>"%string ++ [10%N] ++ txt "<pre> a"%string ++ [10%N] ++ txt "  b{{ c }}"%string ++ [10%N] ++ txt "  </pre>"%string ++ [10%N] ++ txt "    d</div>"%string.
Example C73_case : exists t e, sorts insertion_sort /\ stable insertion_sort /\ (forall l, insertion_sort l <> Crashed) /\ 0 < cf_indentation_count DefaultConfig.default_config /\
  parse_file true poem = Done (t, []) /\ directives_elsewhere t /\ no_interpolation poem /\ In e (elements t) /\ preformatted_element e /\ outright t e /\
  exists rest, run_analysis true insertion_sort DefaultConfig.default_config true false true [rule_indentation] poem = (WriteFile poem_indented :: rest, Ok tt).
Proof.
  assert (E : match parse_file true poem with
              | Done (t, []) => elsewhereb t && match filter is_sensitive_tag (elements t) with [e] => true | _ => false end
              | _ => false end
    && negb (adjacent (nontriv (lex poem)))
    && match run_analysis true insertion_sort DefaultConfig.default_config true false true [rule_indentation] poem with
       | (WriteFile s :: _, Ok tt) => text_eqb s poem_indented | _ => false end = true) by (vm_compute; reflexivity).
  apply andb_true_iff in E as [E E3]. apply andb_true_iff in E as [E1 E2].
  destruct (parse_file true poem) as [[t [|? ?]]|] eqn:P; try discriminate E1. apply andb_true_iff in E1 as [E0 E1].
  destruct (filter is_sensitive_tag (elements t)) as [|e [|? ?]] eqn:F; try discriminate E1. exists t, e.
  assert (He : In e (filter is_sensitive_tag (elements t))) by (rewrite F; now left). apply filter_In in He as [He Me].
  split; [exact insertion_sort_sorts|]. split; [exact insertion_sort_stable|]. split; [intros l X; discriminate X|].
  split; [apply Nat.ltb_lt; vm_compute; reflexivity|]. split; [reflexivity|]. split; [now apply elsewhereb_sound|].
  split; [exact (adjacent_sound _ (proj1 (negb_true_iff _) E2))|]. split; [exact He|]. split; [now apply preformatted_element_spec|]. split.
  - intros y Hy Ly Py. apply preformatted_element_spec in Py. assert (Iy : In y (filter is_sensitive_tag (elements t))) by (apply filter_In; auto). rewrite F in Iy. destruct Iy as [<-|[]].
    clear - Ly. assert (L : forall x z, In z (tl (lineage x)) -> length (el_path z) < length (el_path x)).
    { intros x. remember (length (el_path x)) as n eqn:N. revert x N. induction n as [|n IH]; intros x N z; rewrite lineage_cons; cbn [tl]; unfold parent; destruct (el_path x) as [|c p] eqn:Q; try discriminate N; [intros []|].
      cbn [List.length] in N. injection N as N. rewrite lineage_cons. intros [<-|H]; [cbn [el_path]; lia|].
      assert (X := IH (mkElem (Node (cr_kind c) (rev_append (cr_left c) (el_tree x :: cr_right c))) (cr_off c) p) N z). rewrite lineage_cons in X. cbn [tl] in X. specialize (X H). lia. }
    apply L in Ly. lia.
  - destruct (run_analysis true insertion_sort DefaultConfig.default_config true false true [rule_indentation] poem) as [[|[ev| |s] rest] o];
      try discriminate E3. destruct o as [[]| |]; try discriminate E3. apply text_eqb_eq in E3. subst s. eauto.
Qed.

(** * Where the full statement fails *)
(** [--fix] with the rules [rules] turns the only text of [f] in [src], [s], into [s']. *)
Definition turns (rules : list rule) (f : elem -> bool) (src s s' : text) : Prop :=
  exists t new t' rest, parse_file true src = Done (t, []) /\ texts_of f t = [s] /\
    run_analysis true insertion_sort DefaultConfig.default_config true false true rules src = (WriteFile new :: rest, Ok tt) /\
    parse_file true new = Done (t', []) /\ texts_of f t' = [s'].
Definition turns_b (rules : list rule) (f : elem -> bool) (src s s' : text) : bool :=
  match parse_file true src with
  | Done (t, []) => match texts_of f t with [x] => text_eqb x s | _ => false end
  | _ => false end &&
  match run_analysis true insertion_sort DefaultConfig.default_config true false true rules src with
  | (WriteFile new :: _, Ok tt) => match parse_file true new with Done (t', []) => match texts_of f t' with [x] => text_eqb x s' | _ => false end | _ => false end
  | _ => false end.
Lemma turns_sound rules f src s s' : turns_b rules f src s s' = true -> turns rules f src s s'.
Proof.
  unfold turns_b, turns. intros H. apply andb_true_iff in H as [H1 H2]. destruct (parse_file true src) as [[t [|? ?]]|]; try discriminate H1.
  destruct (texts_of f t) as [|x [|? ?]] eqn:F; try discriminate H1. apply text_eqb_eq in H1. subst x.
  destruct (run_analysis true insertion_sort DefaultConfig.default_config true false true rules src) as [[|[ev| |new] rest] o]; try discriminate H2. destruct o as [[]| |]; try discriminate H2.
  destruct (parse_file true new) as [[t' [|? ?]]|] eqn:P'; try discriminate H2. destruct (texts_of f t') as [|x [|? ?]] eqn:F'; try discriminate H2. apply text_eqb_eq in H2. subst x.
  exists t, new, t', rest. auto.
Qed.
Definition nl : text := [10%N].
(** The indentation of a line inside of a twig string changes. *)
Theorem C73_fixes_keep_strings_refuted : turns RULE_DEFINITIONS (node_of TWIG_LITERAL_STRING_INNER)
  (txt "<p>{{ ""a"%string ++ nl ++ txt "b"" }}</p>"%string) (txt "a"%string ++ nl ++ txt "b"%string) (txt "a"%string ++ nl ++ txt "    b"%string).
Proof. apply turns_sound. vm_compute. reflexivity. Qed.
(** That inside of the value of an attribute too. *)
Theorem C73_fixes_keep_attribute_values_refuted : turns RULE_DEFINITIONS (node_of HTML_STRING_INNER)
  (txt "<p title=""a"%string ++ nl ++ txt "b""></p>"%string) (txt "a"%string ++ nl ++ txt "b"%string) (txt "a"%string ++ nl ++ txt "   b"%string).
Proof. apply turns_sound. vm_compute. reflexivity. Qed.
(** White space on an empty line of preformatted text is removed. *)
Theorem C73_fixes_keep_preformatted_elements_refuted : turns RULE_DEFINITIONS is_sensitive_tag
  (txt "<pre>a"%string ++ nl ++ txt "  "%string ++ nl ++ txt "b</pre>"%string) (txt "<pre>a"%string ++ nl ++ txt "  "%string ++ nl ++ txt "b</pre>"%string) (txt "<pre>a"%string ++ nl ++ nl ++ txt "b</pre>"%string).
Proof. apply turns_sound. vm_compute. reflexivity. Qed.
(** After an inner element in which white space matters, the outer one is indented. *)
Theorem C73_indentation_keeps_preformatted_elements_refuted : turns [rule_indentation] (fun e => is_sensitive_tag e && match parent e with Some p => kind_eqb (el_kind p) ROOT | None => false end)
  (txt "<pre><textarea></textarea>"%string ++ nl ++ txt "b</pre>"%string) (txt "<pre><textarea></textarea>"%string ++ nl ++ txt "b</pre>"%string)
  (txt "<pre><textarea></textarea>"%string ++ nl ++ txt "    b</pre>"%string).
Proof. apply turns_sound. vm_compute. reflexivity. Qed.

Print Assumptions C73_indentation_keeps_preformatted_elements_partial.
Print Assumptions C73_fixes_keep_strings_refuted.
Print Assumptions C73_fixes_keep_attribute_values_refuted.
Print Assumptions C73_fixes_keep_preformatted_elements_refuted.
Print Assumptions C73_indentation_keeps_preformatted_elements_refuted.
