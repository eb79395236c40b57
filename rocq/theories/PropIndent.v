(** Property theorems about the fixes that only move white space: C51. *)
From Coq Require Import NArith String Bool Permutation Lia Arith List.
Import ListNotations.
From Verif Require Import Shape PropShape PropSkel Text Kind Regex Lexer LexerProofs PropLexer ParserApi Machine TreeSpec PropParser Red Typed Rule Rules Check Process DefaultConfig RedFacts WalkSpec PropProcess PropRun PropTree PropFits PropLines Layout LexLayout PropLayout.
Local Open Scope list_scope.
Local Notation length := List.length (only parsing).

(** * What is meant *)

(** The two rules that only change the blanks and tabs at the start of lines. *)
Definition layout_rules : list rule := [rule_indentation; rule_whitespace_between_line_breaks].

(** No ignore directive in the tree switches everything off: each names some rule. *)
Definition directives_name_rules (t : tree) : Prop :=
  forall cs, subtree (Node LUDTWIG_DIRECTIVE_IGNORE cs) t -> tree_rules (Node LUDTWIG_DIRECTIVE_IGNORE cs) <> [].

(** * Edits at the start of lines *)
Definition blanks (s : text) : Prop := Forall (fun c => blankc c = true) s.
Definition line_start (a : text) : Prop := a = [] \/ exists a', a = a' ++ [10%N].
Definition indent_edit (src : text) (s : suggestion) : Prop :=
  exists a old b, src = a ++ old ++ b /\ line_start a /\ blanks old /\ blanks (sg_text s) /\
                  blen a = sg_start s /\ sg_end s = sg_start s + blen old.

Lemma lines_app a : line_start a -> exists L, forall x, lines (a ++ x) = L ++ lines x.
Proof.
  intros [->|(a' & ->)]; [exists []; reflexivity|].
  induction a' as [|c a' (L & IH)]; [exists [[]]; reflexivity|].
  cbn [app]. cbn [lines]. destruct (N.eqb c 10).
  - exists ([] :: L). intros x. cbn [app]. f_equal. apply IH.
  - destruct L as [|l L].
    + exfalso. specialize (IH []). rewrite app_nil_r in IH. cbn [app lines] in IH.
      apply (f_equal (@length _)) in IH. cbn [List.length] in IH. clear -IH.
      assert (H : 2 <= length (lines (a' ++ [10%N]))).
      { clear IH. induction a' as [|c a' IH]; cbn [app lines]; [cbn; lia|]. destruct (N.eqb c 10); cbn [List.length]; [lia|].
        destruct (lines (a' ++ [10%N])); cbn [List.length] in *; lia. }
      lia.
    + exists ((c :: l) :: L). intros x. rewrite IH. reflexivity.
Qed.
Lemma lines_not_nil s : lines s <> [].
Proof. destruct s as [|c s]; cbn [lines]; [discriminate|]. destruct (N.eqb c 10); [discriminate|]. destruct (lines s); discriminate. Qed.
Lemma blankc_not_lf c : blankc c = true -> N.eqb c 10 = false.
Proof. unfold blankc. intros H. apply orb_true_iff in H as [H|H]; apply N.eqb_eq in H; subst; reflexivity. Qed.
Lemma lines_blanks old x : blanks old -> map unindented (lines (old ++ x)) = map unindented (lines x).
Proof.
  induction 1 as [|c old Hc H IH]; [reflexivity|]. cbn [app lines]. rewrite (blankc_not_lf c Hc), <- IH.
  destruct (lines (old ++ x)) as [|l ls] eqn:E; [destruct (lines_not_nil _ E)|]. cbn [map unindented].
  unfold blankc in Hc. rewrite Hc. reflexivity.
Qed.
Lemma replace_blanks a old new x : line_start a -> blanks old -> blanks new ->
  same_lines (a ++ old ++ x) (a ++ new ++ x).
Proof.
  intros A O N. destruct (lines_app a A) as (L & HL). unfold same_lines. rewrite !HL, !map_app, !lines_blanks by assumption. reflexivity.
Qed.
Lemma blen_inj a b c d : a ++ b = c ++ d -> blen a = blen c -> a = c /\ b = d.
Proof.
  intros E L. destruct (blen_prefix a b c d E) as (m & -> & ->); [lia|]. rewrite blen_app in L.
  destruct m as [|x m]; [rewrite app_nil_r; split; reflexivity|].
  change (blen (x :: m)) with (utf8_len x + blen m) in L. pose proof (utf8_len_pos x). lia.
Qed.
Lemma edited_same_lines : forall edits pre t new, edited (blen pre) t edits new ->
  Forall (indent_edit (pre ++ t)) edits -> same_lines (pre ++ t) (pre ++ new).
Proof.
  induction edits as [|s edits IH]; intros pre t new D F; inversion D as [|? keep old rest ? ? n S1 S2 D' E1 E2 E3]; subst; [reflexivity|].
  inversion F as [|? ? (a & o & b & Es & A & O & N & L1 & L2) F']; subst.
  assert (Q : (pre ++ keep) ++ old ++ rest = a ++ o ++ b) by (rewrite <- Es, <- app_assoc; reflexivity).
  apply blen_inj in Q as [<- Q]; [|rewrite blen_app; lia]. apply blen_inj in Q as [<- <-]; [|lia].
  specialize (IH (pre ++ keep ++ old) rest n). rewrite <- !app_assoc in IH.
  unfold same_lines in *. rewrite IH.
  - pose proof (replace_blanks (pre ++ keep) old (sg_text s) n A O N) as R. unfold same_lines in R. rewrite <- !app_assoc in R. exact R.
  - rewrite !blen_app. replace (blen pre + (blen keep + blen old)) with (sg_end s) by lia. exact D'.
  - exact F'.
Qed.

(** * The tokens of a tree, side by side *)
Fixpoint tiled (a : nat) (l : list elem) (b : nat) : Prop :=
  match l with
  | [] => a = b
  | x :: r => if is_node (el_tree x) then tiled a r b else el_start x = a /\ tiled (el_end x) r b
  end.
Lemma tiled_app : forall l a r c, tiled a (l ++ r) c <-> exists b, tiled a l b /\ tiled b r c.
Proof.
  induction l as [|x l IH]; intros a r c; cbn [app tiled].
  - split; [intros H; exists a; auto|]. intros (b & -> & H). exact H.
  - destruct (is_node (el_tree x)); [apply IH|]. split.
    + intros [E H]. apply IH in H as (b & H1 & H2). exists b. auto.
    + intros (b & [E H1] & H2). split; [exact E|]. apply IH. exists b. auto.
Qed.
Lemma tiled_le : forall l a b, tiled a l b -> a <= b.
Proof.
  induction l as [|x l IH]; intros a b; cbn [tiled]; [intros ->; lia|]. destruct (is_node (el_tree x)); [apply IH|].
  intros [<- H]. apply IH in H. pose proof (start_end x). lia.
Qed.
Lemma preorder_tiled : forall e, tiled (el_start e) (preorder_elem e) (el_end e).
Proof.
  apply elem_induction. intros e IH. rewrite preorder_elem_unfold. cbn [tiled].
  destruct (is_node (el_tree e)) eqn:N.
  2: { destruct (el_tree e) eqn:T; [|discriminate]. unfold children_with_tokens. rewrite T. cbn. auto. }
  destruct e as [[|k cs] off p]; [discriminate|]. unfold el_start, el_end in *. cbn [el_off el_tree] in *. rewrite tree_len_node.
  unfold children_with_tokens in *. cbn [el_tree el_off el_path] in *.
  assert (G : forall cs o l, (forall x, In x (elems_of k off p l o cs) -> tiled (el_off x) (preorder_elem x) (el_off x + tree_len (el_tree x))) ->
    tiled o (flat_map preorder_elem (elems_of k off p l o cs)) (o + trees_len cs)); [|apply G, IH].
  clear. induction cs as [|c cs IHc]; intros o l IH; cbn [elems_of flat_map].
  - cbn. lia.
  - apply tiled_app. exists (o + tree_len c). split.
    + apply (IH (mkElem c o (mkCrumb k off l cs :: p))). now left.
    + replace (o + trees_len (c :: cs)) with (o + tree_len c + trees_len cs) by (unfold trees_len; cbn [fold_right]; lia).
      apply IHc. intros x Hx. apply IH. right. exact Hx.
Qed.
Lemma elements_tiled t : tiled 0 (elements t) (tree_len t).
Proof. apply (preorder_tiled (root_elem t)). Qed.
Lemma tiled_split a l1 x l2 b : tiled a (l1 ++ x :: l2) b -> is_node (el_tree x) = false ->
  tiled a l1 (el_start x) /\ tiled (el_end x) l2 b.
Proof.
  intros H N. apply tiled_app in H as (c & H1 & H2). cbn [tiled] in H2. rewrite N in H2. destruct H2 as [<- H2]. auto.
Qed.
(** Two tokens are the same one or one is before the other. *)
Lemma tokens_apart t x y : In x (elements t) -> In y (elements t) ->
  is_node (el_tree x) = false -> is_node (el_tree y) = false ->
  x = y \/ el_end x <= el_start y \/ el_end y <= el_start x.
Proof.
  intros Hx Hy Nx Ny. pose proof (elements_tiled t) as T. apply in_split in Hx as (l1 & l2 & E). rewrite E in T, Hy.
  apply tiled_split in T as [T1 T2]; [|exact Nx]. apply in_app_or in Hy as [Hy|[Hy|Hy]]; [| left; exact Hy|].
  - right. right. apply in_split in Hy as (m1 & m2 & ->). apply tiled_split in T1 as [_ T1]; [|exact Ny]. exact (tiled_le _ _ _ T1).
  - right. left. apply in_split in Hy as (m1 & m2 & ->). apply tiled_split in T2 as [T2 _]; [|exact Ny]. exact (tiled_le _ _ _ T2).
Qed.

Lemma first_token_at_leaf : forall t off p x, first_token_at t off p = Some x ->
  el_start x = off /\ is_node (el_tree x) = false.
Proof.
  induction t as [k s|k cs IH] using tree_induction; intros off p x; cbn [first_token_at].
  - intros [= <-]. split; reflexivity.
  - destruct cs as [|c r]; [discriminate|]. inversion IH; subst. eauto.
Qed.
Lemma next_token_adjacent root e x : within root e -> next_token e = Some x ->
  el_start x = el_end e /\ is_node (el_tree x) = false.
Proof.
  unfold next_token. generalize (length (el_path e)). intros n. revert e.
  assert (S : forall e s, next_sibling_or_token e = Some s -> first_token s = Some x ->
              el_start x = el_end e /\ is_node (el_tree x) = false).
  { intros e s E F. apply first_token_at_leaf in F as [F1 F2]. split; [|exact F2]. rewrite F1.
    unfold next_sibling_or_token in E. destruct (el_path e) as [|c p]; [discriminate|].
    destruct (cr_right c); [discriminate|]. injection E as <-. reflexivity. }
  induction n as [|n IH]; intros e W; cbn [next_token_up].
  - destruct (next_sibling_or_token e) as [s|] eqn:E; [apply (S e s E)|discriminate].
  - destruct (next_sibling_or_token e) as [s|] eqn:E; [apply (S e s E)|].
    destruct (parent e) as [q|] eqn:P; [|discriminate]. intros H.
    destruct (IH q (within_parent _ _ _ W P) H) as [H1 H2]. split; [|exact H2]. rewrite H1.
    unfold parent in P. unfold next_sibling_or_token in E. destruct W as [_ W]. unfold el_end.
    destruct (el_path e) as [|c p] eqn:Q; [discriminate|]. destruct (cr_right c); [|discriminate].
    injection P as <-. cbn [el_off el_tree placed] in *. destruct W as [-> _].
    rewrite tree_len_node, rev_append_rev, trees_len_app, trees_len_rev. unfold trees_len at 2. cbn [fold_right]. lia.
Qed.

(** * The texts of white-space tokens *)
Lemma whitespace_tokens : forall dbg src t errs e, parse_file dbg src = Done (t, errs) ->
  In e (elements t) -> is_node (el_tree e) = false -> el_kind e = TK_WHITESPACE -> blanks (el_text e).
Proof.
  intros dbg src t errs e P I N K. unfold parse_file in P. destruct (parse_src dbg src) as [[t' e']| |] eqn:Q; try discriminate.
  injection P as -> ->. apply elements_leaves in I; [|exact N].
  destruct (merges_kind _ _ (C08_leaves_refine_tokens _ _ _ _ Q) _ _ I) as (tk & A & B & C); [rewrite K; discriminate|].
  apply in_split in A. destruct A as (pre & post & A). rewrite K in B.
  destruct (C09_longest_match src pre tk post A) as [(U & _)|(p & k & w & (_ & D & _ & t1 & t2 & T & _) & _ & H)].
  - rewrite U in B. discriminate B.
  - assert (E : k = TK_WHITESPACE /\ tk_text tk = w).
    { destruct H as [(_ & _ & H1 & H2)|[(_ & [[H _]|[H _]])|(_ & [[H _]|[H _]])]]; try (rewrite H in B; discriminate B).
      split; [congruence|exact H2]. }
    destruct E as [-> E]. assert (Ip : In (p, TK_WHITESPACE) lex_table) by (rewrite T; apply in_or_app; right; left; reflexivity).
    rewrite <- C, E. eapply ws_entry; [exact Ip|]. destruct p; exact D.
Qed.
Lemma breaks_end l : l <> [] -> exists a, breaks l = a ++ [10%N].
Proof.
  intros N. destruct (exists_last N) as (l' & w & ->). unfold breaks. rewrite flat_map_app. cbn [flat_map].
  destruct w; [exists (flat_map (fun w : bool => if w then [CR; LF] else [LF]) l' ++ [CR])|exists (flat_map (fun w : bool => if w then [CR; LF] else [LF]) l')];
    rewrite <- ?app_assoc; reflexivity.
Qed.

(** * Nothing is skipped in an error-free template without blanket directives *)
Lemma nothing_hidden dbg src t : parse_src dbg src = OK (t, []) -> directives_name_rules t ->
  forall e, within t e -> tree_hides e = false.
Proof.
  intros P D e W. unfold tree_hides. destruct (is_node (el_tree e)) eqn:N; [|reflexivity]. cbn [andb].
  apply orb_false_iff. split.
  - destruct e as [[|k cs] off p]; [discriminate|]. pose proof (within_subtree _ _ _ _ W) as S.
    pose proof (C44_no_error_nodes _ _ _ P _ _ S) as K. unfold el_kind. cbn [el_tree tree_kind].
    destruct (kind_eqb k ERROR) eqn:Q; [apply kind_eqb_eq in Q; contradiction|reflexivity].
  - unfold names_before_node. destruct (el_path e) as [|c p] eqn:Q; [reflexivity|].
    destruct (find is_node (cr_left c)) as [d|] eqn:F; [|reflexivity]. destruct (is_directive d) eqn:I; [|reflexivity].
    apply find_some in F as [F _]. destruct d as [|k cs]; [discriminate|]. cbn [is_directive] in I.
    assert (k = LUDTWIG_DIRECTIVE_IGNORE) as -> by (destruct k; try discriminate I; reflexivity).
    assert (S : subtree (Node LUDTWIG_DIRECTIVE_IGNORE cs) t).
    { destruct W as [W1 W2]. rewrite Q in W1, W2. cbn [rebuild placed] in W1, W2.
      assert (S : subtree (Node (cr_kind c) (rev (cr_left c) ++ el_tree e :: cr_right c)) t).
      { apply (within_subtree t p _ (cr_off c)). split; [exact W1|apply W2]. }
      clear -S F. remember (Node (cr_kind c) _) as x eqn:E. induction S as [|k cs' y Hy S IH].
      - rewrite E. apply sub_child with (Node LUDTWIG_DIRECTIVE_IGNORE cs); [apply in_or_app; left; now apply -> in_rev|constructor].
      - apply sub_child with y; [exact Hy|apply IH; exact E]. }
    apply D in S. cbn [blanket]. destruct (tree_rules _); [contradiction|reflexivity].
Qed.
Lemma lineage_within root : forall p t off x, within root (mkElem t off p) -> In x (lineage (mkElem t off p)) -> within root x.
Proof.
  induction p as [|c p IH]; intros t off x W H; rewrite lineage_cons in H; cbn [parent el_path] in H.
  - destruct H as [<-|[]]. exact W.
  - destruct H as [<-|H]; [exact W|]. eapply IH; [|exact H]. eapply within_parent; [exact W|]. reflexivity.
Qed.
Lemma all_seen dbg src t : parse_src dbg src = OK (t, []) -> directives_name_rules t ->
  filter (seen tree_hides) (elements t) = elements t.
Proof.
  intros P D. assert (H : forall e, In e (elements t) -> seen tree_hides e = true).
  { intros e I. unfold seen. apply negb_true_iff. destruct (existsb tree_hides (lineage e)) eqn:E; [|reflexivity].
    apply existsb_exists in E as (x & Hx & E). rewrite (nothing_hidden _ _ _ P D x) in E; [discriminate|].
    destruct e as [t0 off p]. eapply lineage_within; [|exact Hx]. apply elements_within. exact I. }
  revert H. generalize (elements t). induction l as [|x l IH]; intros H; [reflexivity|]. cbn [filter].
  rewrite (H x (or_introl eq_refl)). f_equal. apply IH. intros y Hy. apply H. now right.
Qed.

(** * What the two rules suggest *)
Section Suggested.
  Context (dbg : bool) (src : text) (t : tree) (cf : config).
  Hypothesis (P : parse_file dbg src = Done (t, [])) (D : directives_name_rules t).

  Lemma parsed : parse_src dbg src = OK (t, []).
  Proof. clear D. unfold parse_file in P. destruct (parse_src dbg src) as [[t' e']| |]; try discriminate. injection P as -> ->. reflexivity. Qed.
  Lemma source : tree_text t = src.
  Proof. exact (proj2 (C02_parse_lossless dbg src t [] parsed)). Qed.

  (** The suggestion is for a token: for all of it or for the place before it. *)
  Definition sits (s : suggestion) : Prop :=
    exists x, In x (elements t) /\ is_node (el_tree x) = false /\ sg_start s = el_start x /\
              (sg_end s = el_end x \/ sg_end s = el_start x).
  Definition fine (s : suggestion) : Prop := indent_edit src s /\ sits s.

  (** The line starts at [pos]. *)
  Definition starts_at (pos : nat) : Prop := exists a b, src = a ++ b /\ blen a = pos /\ line_start a.
  Lemma start_before x pos : within t x -> starts_at pos -> el_start x = pos ->
    exists a b, src = a ++ el_text x ++ b /\ blen a = el_start x /\ line_start a.
  Proof.
    intros W (a & b & E & L & S) X. destruct (within_text t x W) as (a' & b' & E' & L'). rewrite source, E in E'.
    apply blen_inj in E' as [-> ->]; [|lia]. exists a', b'. rewrite <- L'. auto.
  Qed.
  Lemma start_after x : In x (elements t) -> is_node (el_tree x) = false -> el_kind x = TK_LINE_BREAK -> starts_at (el_end x).
  Proof.
    intros I N K. destruct (C33_line_break_tokens _ _ _ _ _ P I N K) as (l & Nl & E). destruct (breaks_end l Nl) as (e & Ee).
    destruct (within_text t x (elements_within _ _ I)) as (a & b & E' & L). rewrite source in E'.
    exists (a ++ el_text x), b. split; [rewrite E', <- app_assoc; reflexivity|]. split; [rewrite blen_app, L, el_end_text; reflexivity|].
    right. exists (a ++ e). rewrite E, Ee, app_assoc. reflexivity.
  Qed.
  Lemma fine_whole x new msg : In x (elements t) -> is_node (el_tree x) = false -> el_kind x = TK_WHITESPACE ->
    starts_at (el_start x) -> blanks new -> fine (mkSug (el_start x) (el_end x) new msg).
  Proof.
    intros I N K S B. split.
    - destruct (start_before x _ (elements_within _ _ I) S eq_refl) as (a & b & E & L & A).
      exists a, (el_text x), b. cbn [sg_start sg_end sg_text]. repeat split; auto; [eapply whitespace_tokens; eauto|apply el_end_text].
    - exists x. auto.
  Qed.
  Lemma fine_before x new msg : In x (elements t) -> is_node (el_tree x) = false ->
    starts_at (el_start x) -> blanks new -> fine (mkSug (el_start x) (el_start x) new msg).
  Proof.
    intros I N S B. split.
    - destruct (start_before x _ (elements_within _ _ I) S eq_refl) as (a & b & E & L & A).
      exists a, [], (el_text x ++ b). cbn [sg_start sg_end sg_text]. repeat split; auto; try constructor; cbn; lia.
    - exists x. auto.
  Qed.

  Lemma blanks_repeat c n : blankc c = true -> blanks (repeat c n).
  Proof. intros H. apply Forall_forall. intros x Hx. apply repeat_spec in Hx. subst. exact H. Qed.
  Lemma handle_fine ctx x lv sub : In x (elements t) -> is_node (el_tree x) = false -> starts_at (el_start x) ->
    exists l, handle_first_token_in_line ctx x lv sub = l /\
      (l = [] \/ exists r s, l = [r] /\ rs_rule r = txt "indentation"%string /\ rs_suggestions r = [s] /\
         fine s /\ sg_start s = el_start x /\ sg_end s <= el_end x).
  Proof.
    intros I N S. eexists. split; [reflexivity|]. unfold handle_first_token_in_line. pose proof (start_end x).
    assert (B : forall w n, blanks (repeat (indentation_char (cf_indentation_mode (cx_config ctx))) w ++ repeat 32%N n)).
    { intros w n. apply Forall_app. split; apply blanks_repeat; [destruct (cf_indentation_mode _); reflexivity|reflexivity]. }
    destruct (kind_eqb (el_kind x) TK_WHITESPACE) eqn:K.
    - destruct (negb _); [|left; reflexivity]. right. eexists _, _. split; [reflexivity|]. split; [reflexivity|]. split; [reflexivity|].
      split; [apply fine_whole; auto; apply kind_eqb_eq; exact K|]. cbn [sg_start sg_end]. auto.
    - destruct (_ || _); [|left; reflexivity]. right. eexists _, _. split; [reflexivity|]. split; [reflexivity|]. split; [reflexivity|].
      split; [apply fine_before; auto|]. cbn [sg_start sg_end]. auto.
  Qed.

  (** The indentation rule: fine suggestions from left to right. *)
  Lemma line_results_fine ctx : forall l pos lb b, incl l (elements t) -> tiled pos l b -> (lb = true -> starts_at pos) ->
    Forall (fun r => rs_rule r = txt "indentation"%string) (line_results ctx lb l) /\
    Forall (fun s => fine s /\ pos <= sg_start s) (flat_map rs_suggestions (line_results ctx lb l)) /\
    in_order (flat_map rs_suggestions (line_results ctx lb l)).
  Proof.
    induction l as [|x l IH]; intros pos lb b I TL S; cbn [line_results].
    - repeat constructor.
    - assert (Ix : In x (elements t)) by (apply I; now left). assert (Il : incl l (elements t)) by (intros y Hy; apply I; now right).
      cbn [tiled] in TL. destruct (is_node (el_tree x)) eqn:N; [eapply IH; eauto|]. destruct TL as [Ex TL]. pose proof (start_end x) as SE.
      assert (W : forall q, Forall (fun s => fine s /\ el_end x <= sg_start s) q -> Forall (fun s => fine s /\ pos <= sg_start s) q).
      { intros q. apply Forall_impl. intros s [A B]. split; [exact A|lia]. }
      destruct (kind_eqb (el_kind x) TK_LINE_BREAK) eqn:K.
      + apply kind_eqb_eq in K. destruct (IH (el_end x) true b Il TL) as (A & B & C); [intros _; now apply start_after|]. auto.
      + destruct (IH (el_end x) false b Il TL) as (A & B & C); [discriminate|].
        destruct lb; cbn [andb]; [|cbn [app]; auto]. destruct (_ && _); [|cbn [app]; auto].
        destruct (handle_fine ctx x (nesting ctx x) (alignment x) Ix N) as (h & -> & [->|(r & s & -> & R1 & R2 & R3 & R4 & R5)]);
          [rewrite Ex; auto|cbn [app]; auto|].
        cbn [app flat_map]. rewrite R2. cbn [app]. repeat split.
        * constructor; auto.
        * constructor; [split; [exact R3|lia]|auto].
        * constructor; [|exact C]. revert B. apply Forall_impl. intros y [_ Hy]. lia.
  Qed.
  Lemma indentation_fine ctx : exists rs, indent_root ctx (root_elem t) = Done rs /\
    Forall (fun r => rs_rule r = txt "indentation"%string) rs /\
    Forall fine (flat_map rs_suggestions rs) /\ in_order (flat_map rs_suggestions rs).
  Proof.
    eexists. split; [apply (C37_indentation_level_never_underflows ctx _ _ _ _ P)|].
    rewrite (all_seen _ _ _ parsed D).
    destruct (line_results_fine ctx (elements t) 0 true (tree_len t) (incl_refl _) (elements_tiled t)) as (A & B & C).
    - intros _. exists [], src. repeat split. now left.
    - repeat split; auto. revert B. apply Forall_impl. tauto.
  Qed.

  (** The other rule: white space after a line break. *)
  Definition empty_line (e : elem) (s : suggestion) : Prop :=
    is_node (el_tree e) = false /\ el_kind e = TK_LINE_BREAK /\
    exists ws, In ws (elements t) /\ is_node (el_tree ws) = false /\ el_kind ws = TK_WHITESPACE /\
      el_start ws = el_end e /\ sg_start s = el_start ws /\ sg_end s = el_end ws.
  Lemma empty_line_result ctx e : In e (elements t) -> is_node (el_tree e) = false ->
    let l := rl_token rule_whitespace_between_line_breaks ctx e in
    l = [] \/ exists r s, l = [r] /\ rs_rule r = txt "whitespace-between-line-breaks"%string /\ rs_suggestions r = [s] /\
                          fine s /\ empty_line e s.
  Proof.
    intros I N. cbn [rl_token rule_whitespace_between_line_breaks]. pose proof (elements_within _ _ I) as W.
    destruct (kind_eqb (el_kind e) TK_LINE_BREAK) eqn:K; cbn [negb]; [|left; reflexivity]. apply kind_eqb_eq in K.
    destruct (next_token e) as [ws|] eqn:E; cbn [obind]; [|left; reflexivity].
    destruct (kind_eqb (el_kind ws) TK_WHITESPACE) eqn:Kw; cbn [negb]; [|left; reflexivity]. apply kind_eqb_eq in Kw.
    destruct (next_token ws) as [lb|]; cbn [obind]; [|left; reflexivity].
    destruct (kind_eqb (el_kind lb) TK_LINE_BREAK); cbn [negb]; [|left; reflexivity].
    right. eexists _, _. split; [reflexivity|]. split; [reflexivity|]. split; [reflexivity|].
    destruct (next_token_adjacent _ _ _ W E) as [A1 A2]. pose proof (within_elements _ _ (within_next_token _ _ _ W E)) as Iw.
    split; [|split; [exact N|]; split; [exact K|]; exists ws; cbn [sg_start sg_end]; auto 8].
    apply fine_whole; auto; [rewrite A1; apply start_after; auto|constructor].
  Qed.

  (** Edits for tokens overlap only if they are for the same token. *)
  Lemma sits_overlap a b : sits a -> sits b -> overlap a b -> sg_start a = sg_start b /\ sg_end a = sg_end b.
  Proof.
    intros (x & Ix & Nx & Sx & Ex) (y & Iy & Ny & Sy & Ey) [O1 O2]. pose proof (start_end x). pose proof (start_end y).
    destruct (tokens_apart t x y Ix Iy Nx Ny) as [->|[A|A]]; [split; lia|lia|lia].
  Qed.

  (** ** All suggestions of a run *)
  Definition indentation_results : list result :=
    match indent_root (mkCtx cf false) (root_elem t) with Done rs => rs | Crashed => [] end.
  Lemma roots_incl : forall rules roots, incl rules layout_rules -> run_roots cf rules (root_elem t) = Done roots ->
    incl roots indentation_results.
  Proof.
    induction rules as [|r rules IH]; intros roots I H; cbn [run_roots] in H; [injection H as <-; intros x []|].
    destruct (rl_root r (mkCtx cf false) (root_elem t)) as [a|] eqn:A; [|discriminate].
    destruct (run_roots cf rules (root_elem t)) as [b|] eqn:B; [|discriminate]. injection H as <-.
    apply incl_app; [|apply IH; [intros x Hx; apply I; now right|reflexivity]].
    destruct (I r (or_introl eq_refl)) as [<-|[<-|[]]]; cbn [rl_root rule_indentation rule_whitespace_between_line_breaks no_root] in A.
    - unfold indentation_results. rewrite A. apply incl_refl.
    - injection A as <-. intros x [].
  Qed.
  Lemma roots_once : forall rules roots, incl rules layout_rules -> NoDup (map rl_name rules) ->
    run_roots cf rules (root_elem t) = Done roots ->
    roots = [] \/ (roots = indentation_results /\ In (txt "indentation"%string) (map rl_name rules)).
  Proof.
    induction rules as [|r rules IH]; intros roots I N H; cbn [run_roots] in H; [injection H as <-; now left|].
    destruct (rl_root r (mkCtx cf false) (root_elem t)) as [a|] eqn:A; [|discriminate].
    destruct (run_roots cf rules (root_elem t)) as [b|] eqn:B; [|discriminate]. injection H as <-.
    cbn [map] in N. inversion N as [|? ? N1 N2]; subst.
    specialize (IH b (fun x Hx => I x (or_intror Hx)) N2 eq_refl).
    destruct (I r (or_introl eq_refl)) as [<-|[<-|[]]]; cbn [rl_root rule_indentation rule_whitespace_between_line_breaks no_root] in A.
    - right. destruct IH as [->|[_ IH]]; [|destruct (N1 IH)]. unfold indentation_results. rewrite A, app_nil_r.
      split; [reflexivity|now left].
    - injection A as <-. destruct IH as [->|[-> IH]]; [now left|right]. split; [reflexivity|now right].
  Qed.
  Lemma checked_fine rules flag e : incl rules layout_rules -> In e (elements t) ->
    Forall (fun r => rs_rule r = txt "whitespace-between-line-breaks"%string /\
                     exists s, rs_suggestions r = [s] /\ fine s /\ empty_line e s) (checked cf rules flag e).
  Proof.
    intros I Ie. apply Forall_forall. intros r Hr. unfold checked in Hr. apply in_flat_map in Hr as (rl & Hrl & Hr).
    destruct (switched_off (rl_name rl) e); [destruct Hr|].
    destruct (I rl Hrl) as [<-|[<-|[]]].
    - destruct (is_node (el_tree e)); destruct Hr.
    - destruct (is_node (el_tree e)) eqn:N; [destruct Hr|].
      destruct (empty_line_result (mkCtx cf flag) e Ie N) as [E|(r' & s & E & A & B & C & F)]; rewrite E in Hr; [destruct Hr|].
      destruct Hr as [<-|[]]. split; [exact A|]. exists s. auto.
  Qed.
  Lemma checked_once rules flag e : incl rules layout_rules -> NoDup (map rl_name rules) -> In e (elements t) ->
    length (checked cf rules flag e) <= 1.
  Proof.
    intros I N Ie. assert (G : forall rules, incl rules layout_rules -> NoDup (map rl_name rules) ->
      checked cf rules flag e = [] \/
      (length (checked cf rules flag e) <= 1 /\ In (txt "whitespace-between-line-breaks"%string) (map rl_name rules))).
    2: { destruct (G rules I N) as [->|[H _]]; [cbn; lia|exact H]. }
    clear I N rules. induction rules as [|r rules IH]; intros I N; [now left|]. cbn [map] in *. inversion N as [|? ? N1 N2]; subst.
    specialize (IH (fun x Hx => I x (or_intror Hx)) N2). unfold checked in *. cbn [flat_map].
    destruct (I r (or_introl eq_refl)) as [<-|[<-|[]]].
    - replace (if switched_off (rl_name rule_indentation) e then []
               else (if is_node (el_tree e) then rl_node rule_indentation else rl_token rule_indentation) (mkCtx cf flag) e)
        with (@nil result) by (destruct (switched_off _ e), (is_node (el_tree e)); reflexivity).
      cbn [app]. destruct IH as [->|[A B]]; [now left|right]. split; [exact A|now right].
    - destruct IH as [->|[_ IH]]; [|destruct (N1 IH)]. right. rewrite app_nil_r. split; [|now left].
      destruct (switched_off _ e); [cbn; lia|]. destruct (is_node (el_tree e)) eqn:Nd; [cbn; lia|].
      destruct (empty_line_result (mkCtx cf flag) e Ie Nd) as [->|(r' & s & -> & _)]; cbn; lia.
  Qed.
  Lemma walk_in_order rules flag (keep : elem -> bool) : incl rules layout_rules -> NoDup (map rl_name rules) ->
    forall l pos b, tiled pos l b -> incl l (elements t) ->
    in_order (flat_map rs_suggestions (flat_map (fun e => checked cf rules (flag e) e) (filter keep l))).
  Proof.
    intros IR NR. induction l as [|e l IH]; intros pos b TL I; [constructor|].
    assert (Ie : In e (elements t)) by (apply I; now left). assert (Il : incl l (elements t)) by (intros y Hy; apply I; now right).
    assert (R : in_order (flat_map rs_suggestions (flat_map (fun e => checked cf rules (flag e) e) (filter keep l)))).
    { cbn [tiled] in TL. destruct (is_node (el_tree e)); [eapply IH; eauto|]. destruct TL as [_ TL]. eapply IH; eauto. }
    cbn [filter]. destruct (keep e); [|exact R]. cbn [flat_map]. rewrite flat_map_app.
    pose proof (checked_once rules (flag e) e IR NR Ie) as L. pose proof (checked_fine rules (flag e) e IR Ie) as F.
    destruct (checked cf rules (flag e) e) as [|r [|? ?]]; [exact R| |cbn in L; lia].
    inversion F as [|? ? (_ & s & Es & _ & Ne & Ke & ws & Iw & Nw & Kw & Sw & S1 & S2) _]; subst.
    cbn [flat_map]. rewrite Es. cbn [app]. constructor; [|exact R].
    apply Forall_forall. intros s' Hs'. apply in_flat_map in Hs' as (r' & Hr' & Hs'). apply in_flat_map in Hr' as (e' & He' & Hr').
    apply filter_In in He' as [He' _]. pose proof (checked_fine rules (flag e') e' IR (Il _ He')) as F'.
    rewrite Forall_forall in F'. destruct (F' _ Hr') as (_ & s2 & Es2 & _ & Ne' & Ke' & ws' & _ & _ & _ & Sw' & S1' & S2').
    rewrite Es2 in Hs'. destruct Hs' as [<-|[]]. rewrite S2, S1', Sw'.
    cbn [tiled] in TL. rewrite Ne in TL. destruct TL as [_ TL]. apply in_split in He' as (l1 & l2 & ->).
    apply tiled_split in TL as [TL _]; [|exact Ne']. apply tiled_le in TL.
    assert (Ie' : In e' (elements t)) by (apply Il, in_or_app; right; now left).
    destruct (C33_line_break_tokens _ _ _ _ _ P Ie' Ne' Ke') as (bl & Nb & Eb).
    assert (Lb : el_start e' < el_end e').
    { rewrite el_end_text, Eb. destruct (breaks_end bl Nb) as (z & ->). rewrite blen_app. cbn. lia. }
    destruct (tokens_apart t ws e' Iw Ie' Nw Ne') as [->|[A|A]]; [rewrite Kw in Ke'; discriminate|lia|lia].
  Qed.

  Lemma suggested_snd rs : map snd (rule_suggestions rs) = flat_map rs_suggestions rs.
  Proof.
    induction rs as [|r rs IH]; [reflexivity|]. unfold rule_suggestions in *. cbn [flat_map]. rewrite map_app, IH, map_map.
    cbn [snd]. rewrite map_id. reflexivity.
  Qed.
  Lemma suggested_app a b : rule_suggestions (a ++ b) = rule_suggestions a ++ rule_suggestions b.
  Proof. apply flat_map_app. Qed.
  Lemma suggested_fst name rs : Forall (fun r => rs_rule r = name) rs -> Forall (fun p => fst p = name) (rule_suggestions rs).
  Proof.
    intros F. apply Forall_forall. intros p Hp. apply in_flat_map in Hp as (r & Hr & Hp). apply in_map_iff in Hp as (s & <- & _).
    rewrite Forall_forall in F. exact (F r Hr).
  Qed.

  Lemma indentation_results_fine :
    Forall (fun r => rs_rule r = txt "indentation"%string) indentation_results /\
    Forall fine (flat_map rs_suggestions indentation_results) /\ in_order (flat_map rs_suggestions indentation_results).
  Proof. destruct (indentation_fine (mkCtx cf false)) as (rs & E & H). unfold indentation_results. rewrite E. exact H. Qed.

  Lemma run_fine rules rs : incl rules layout_rules -> run_rules cf rules t = Done rs ->
    Forall (fun p => fine (snd p)) (rule_suggestions rs).
  Proof.
    intros I R. destruct rules as [|r0 rules']; [injection R as <-; constructor|].
    destruct (C15_ignore_directives_have_exact_scope _ _ _ _ R) as (roots & flag & A & ->); [discriminate|].
    rewrite suggested_app. apply Forall_app. split.
    - apply roots_incl in A; [|exact I]. destruct indentation_results_fine as (_ & F & _).
      apply Forall_forall. intros p Hp. apply in_flat_map in Hp as (r & Hr & Hp). apply in_map_iff in Hp as (s & <- & Hs).
      rewrite Forall_forall in F. apply F. apply in_flat_map. exists r. auto.
    - apply Forall_forall. intros p Hp. apply in_flat_map in Hp as (r & Hr & Hp). apply in_map_iff in Hp as (s & <- & Hs).
      apply in_flat_map in Hr as (e & He & Hr). apply filter_In in He as [He _].
      pose proof (checked_fine _ (flag e) e I He) as F. rewrite Forall_forall in F. destruct (F r Hr) as (_ & s' & Es & F' & _).
      rewrite Es in Hs. destruct Hs as [<-|[]]. exact F'.
  Qed.
  Lemma in_order_pairwise (l : list (text * suggestion)) : in_order (map snd l) -> pairwise (fun a b => ~ overlap (snd a) (snd b)) l.
  Proof.
    induction l as [|x l IH]; cbn [map pairwise]; intros H; [exact I|]. inversion H as [|? ? H1 H2]; subst. split; [|auto].
    apply Forall_forall. intros y Hy [_ O]. rewrite Forall_forall in H1. specialize (H1 (snd y) (in_map snd _ _ Hy)). lia.
  Qed.
  Lemma pairwise_app {A} (R : A -> A -> Prop) : forall l m, pairwise R l -> pairwise R m ->
    (forall a b, In a l -> In b m -> R a b) -> pairwise R (l ++ m).
  Proof.
    induction l as [|x l IH]; intros m H1 H2 H3; [exact H2|]. destruct H1 as [H0 H1]. cbn [app pairwise]. split.
    - apply Forall_app. split; [exact H0|]. apply Forall_forall. intros y Hy. apply H3; [now left|exact Hy].
    - apply IH; auto. intros a b Ha Hb. apply H3; [now right|exact Hb].
  Qed.
  Lemma pairwise_impl {A} (R R' : A -> A -> Prop) : (forall a b, R a b -> R' a b) -> forall l, pairwise R l -> pairwise R' l.
  Proof.
    intros H. induction l as [|x l IH]; [auto|]. intros [A1 A2]. split; [|auto]. revert A1. apply Forall_impl. auto.
  Qed.
  Lemma run_apart rules rs : incl rules layout_rules -> NoDup (map rl_name rules) -> run_rules cf rules t = Done rs ->
    pairwise (fun a b => fst a = fst b -> ~ overlap (snd a) (snd b)) (rule_suggestions rs).
  Proof.
    intros I N R. destruct rules as [|r0 rules']; [injection R as <-; exact Logic.I|].
    destruct (C15_ignore_directives_have_exact_scope _ _ _ _ R) as (roots & flag & A & ->); [discriminate|].
    destruct indentation_results_fine as (F1 & _ & F3). rewrite suggested_app. apply pairwise_app.
    - apply roots_once in A; auto. destruct A as [->|[-> _]]; [exact Logic.I|].
      eapply pairwise_impl; [|apply in_order_pairwise; rewrite suggested_snd; exact F3]. auto.
    - eapply pairwise_impl; [|apply in_order_pairwise; rewrite suggested_snd; eapply walk_in_order; eauto using elements_tiled, incl_refl]. auto.
    - intros a b Ha Hb. apply roots_incl in A; [|exact I].
      assert (Ea : fst a = txt "indentation"%string).
      { refine (proj1 (Forall_forall (fun p => fst p = _) _) _ a Ha). apply suggested_fst.
        apply Forall_forall. intros r Hr. rewrite Forall_forall in F1. apply F1, A, Hr. }
      assert (Eb : fst b = txt "whitespace-between-line-breaks"%string).
      { refine (proj1 (Forall_forall (fun p => fst p = _) _) _ b Hb). apply suggested_fst. apply Forall_forall. intros r Hr.
        apply in_flat_map in Hr as (e & He & Hr). apply filter_In in He as [He _].
        pose proof (checked_fine _ (flag e) e I He) as F. rewrite Forall_forall in F. apply (F r Hr). }
      rewrite Ea, Eb. intros E. discriminate E.
  Qed.

  Lemma fine_grouped l : Forall (fun p : text * suggestion => fine (snd p)) l -> grouped l /\ proper l.
  Proof.
    intros F. rewrite Forall_forall in F. split.
    - intros a b c Ha Hb Hc O1 O2. destruct (sits_overlap _ _ (proj2 (F a Ha)) (proj2 (F b Hb)) O1) as [E1 E2].
      unfold overlap in *. lia.
    - intros a Ha. destruct (F a Ha) as [(x & old & y & _ & _ & _ & _ & _ & E) _]. lia.
  Qed.
  Lemma indent_edit_fits s : indent_edit src s -> fits src s.
  Proof.
    intros (a & old & b & E & _ & _ & _ & L1 & L2). split; [lia|]. split.
    - exists a, (old ++ b). auto.
    - exists (a ++ old), b. rewrite E, <- app_assoc, blen_app. split; [reflexivity|lia].
  Qed.

  (** ** One round *)
  Lemma chosen_incl sorted chosen : select_suggestions sorted = inr chosen -> forall s, In s chosen -> exists p, In p sorted /\ snd p = s.
  Proof.
    unfold select_suggestions. destruct (overlapping_rules sorted); [discriminate|]. intros [= <-] s H.
    apply in_map_iff in H as (p & <- & H). apply filter_In in H as [H _]. eauto.
  Qed.
  Lemma round sort rules rs sorted chosen : sorts sort -> incl rules layout_rules -> run_rules cf rules t = Done rs ->
    sort (rule_suggestions rs) = Done sorted -> select_suggestions sorted = inr chosen ->
    exists new, apply_suggestions chosen src = Done new /\ same_lines src new.
  Proof.
    intros C I R S E. pose proof (run_fine _ _ I R) as F. destruct (fine_grouped _ F) as [G Pr].
    pose proof (C21_no_overlapping_edits_partial _ _ _ _ C S E G Pr) as NO. destruct (C _ _ S) as [Pm Sd]. specialize (Sd G Pr).
    assert (O : in_order chosen).
    { assert (PW : pairwise (fun a b => ordering a b <> Gt) chosen).
      { unfold select_suggestions in E. destruct (overlapping_rules sorted); [discriminate|]. injection E as <-.
        apply pairwise_map_filter. eapply pairwise_impl; [|exact Sd]. intros a b H _ . exact H. }
      clear -NO PW. induction chosen as [|x l IH]; [constructor|]. destruct NO as [N1 N2], PW as [W1 W2]. constructor; [|auto].
      apply Forall_forall. intros y Hy. rewrite Forall_forall in N1, W1. specialize (N1 y Hy). specialize (W1 y Hy).
      apply ordering_lt. destruct (ordering x y) eqn:Q; [|reflexivity|contradiction]. apply ordering_eq in Q. contradiction. }
    assert (IE : Forall (indent_edit src) chosen).
    { apply Forall_forall. intros s Hs. destruct (chosen_incl _ _ E s Hs) as (p & Hp & <-).
      rewrite Forall_forall in F. apply F. apply (Permutation_in _ (Permutation_sym Pm)). exact Hp. }
    destruct (C20_edits_are_applied_exactly src chosen O) as (new & A & Ed).
    { revert IE. apply Forall_impl. exact indent_edit_fits. }
    exists new. split; [exact A|]. apply (edited_same_lines chosen [] src new Ed IE).
  Qed.
  Lemma no_collision sort rules rs sorted name : sorts sort -> incl rules layout_rules -> NoDup (map rl_name rules) ->
    run_rules cf rules t = Done rs -> sort (rule_suggestions rs) = Done sorted -> overlapping_rules sorted <> inl name.
  Proof.
    intros C I N R S E. destruct (C _ _ S) as [Pm _]. pose proof (run_apart _ _ I N R) as PW.
    assert (PS : pairwise (fun a b : text * suggestion => fst a = fst b -> ~ overlap (snd a) (snd b)) sorted).
    { clear -Pm PW. induction Pm as [|x l l' Pm IH|x y l|l l' l'' Pm1 IH1 Pm2 IH2]; auto.
      - destruct PW as [A B]. split; [|auto]. apply Forall_forall. intros y Hy. rewrite Forall_forall in A. apply A.
        apply (Permutation_in _ (Permutation_sym Pm)). exact Hy.
      - destruct PW as [A [B C]]. inversion A as [|? ? A1 A2]; subst. split; [|split; auto].
        constructor; [|exact B]. intros E O. apply (A1 (eq_sym E)). apply overlap_sym, O. }
    destruct (overlapping_rules_sound _ _ E) as (m1 & a & b & m2 & -> & O).
    clear -PS O. induction m1 as [|x m1 IH]; cbn [app pairwise] in PS.
    - destruct PS as [PS _]. exact (Forall_inv PS eq_refl O).
    - apply IH, PS.
  Qed.
End Suggested.

(** * The same tree up to white space has the same directives *)
Lemma bare_subtree : forall t k cs, subtree (Node k cs) t ->
  exists b, In b (bare t) /\ subtree (Node k (flat_map bare cs)) b.
Proof.
  intros t k cs S. remember (Node k cs) as x eqn:E. induction S as [|k' cs' y Hy S IH].
  - subst. exists (Node k (flat_map bare cs)). split; [now left|constructor].
  - destruct IH as (b & Hb & Sb). exists (Node k' (flat_map bare cs')). split; [now left|].
    apply sub_child with b; [|exact Sb]. apply in_flat_map. eauto.
Qed.
Lemma bare_subtree_back : forall t k bs b, In b (bare t) -> subtree (Node k bs) b ->
  exists cs, bs = flat_map bare cs /\ subtree (Node k cs) t.
Proof.
  induction t as [k0 s|k0 cs0 IH] using tree_induction; intros k bs b Hb S.
  - cbn [bare] in Hb. destruct (is_trivia k0); [destruct Hb|]. destruct Hb as [<-|[]]. inversion S.
  - cbn [bare] in Hb. destruct Hb as [<-|[]]. inversion S as [|? ? y Hy S']; subst.
    + exists cs0. split; [reflexivity|constructor].
    + apply in_flat_map in Hy as (c & Hc & Hy). rewrite Forall_forall in IH.
      destruct (IH c Hc k bs y Hy S') as (cs & -> & S2). exists cs. split; [reflexivity|]. now apply sub_child with c.
Qed.
Lemma bare_words cs : map tree_text (filter (fun c => negb (is_node c) && kind_eqb (tree_kind c) TK_WORD) (flat_map bare cs))
  = map tree_text (filter (fun c => negb (is_node c) && kind_eqb (tree_kind c) TK_WORD) cs).
Proof.
  induction cs as [|c cs IH]; [reflexivity|]. cbn [flat_map]. rewrite filter_app, map_app, IH.
  destruct c as [k s|k l]; cbn [bare]; [|reflexivity]. destruct (is_trivia k) eqn:T.
  - cbn [filter is_node negb andb tree_kind]. destruct (kind_eqb k TK_WORD) eqn:W; [|reflexivity].
    apply kind_eqb_eq in W. subst. discriminate T.
  - cbn [filter is_node negb andb tree_kind]. destruct (kind_eqb k TK_WORD); reflexivity.
Qed.
Lemma bare_rules k cs : tree_rules (Node k (flat_map bare cs)) = tree_rules (Node k cs).
Proof.
  unfold tree_rules. cbn [children]. induction cs as [|c cs IH]; [reflexivity|]. cbn [flat_map].
  destruct c as [k' s|k' l]; cbn [bare].
  - destruct (is_trivia k'); cbn [app find is_node andb]; exact IH.
  - cbn [app find is_node andb tree_kind]. destruct (kind_eqb k' LUDTWIG_DIRECTIVE_RULE_LIST); [|exact IH].
    unfold tree_words. cbn [children]. apply bare_words.
Qed.
Lemma bare_directives t t' : bare t = bare t' -> directives_name_rules t -> directives_name_rules t'.
Proof.
  intros E D cs S. destruct (bare_subtree _ _ _ S) as (b & Hb & Sb). rewrite <- E in Hb.
  destruct (bare_subtree_back _ _ _ _ Hb Sb) as (cs' & Ec & S'). rewrite <- (bare_rules _ cs), Ec, bare_rules. exact (D cs' S').
Qed.
Lemma same_lines_parsed dbg src t new : parse_file dbg src = Done (t, []) -> same_lines src new ->
  exists t', parse_file dbg new = Done (t', []) /\ bare t = bare t'.
Proof.
  intros P S. pose proof (C50_indentation_is_irrelevant dbg src new S) as H. unfold parse_file in *.
  destruct (parse_src dbg src) as [[t0 e0]| |]; try discriminate. injection P as -> ->.
  destruct (parse_src dbg new) as [[t' e']| |]; try destruct H. inversion H0; subst. eauto.
Qed.

(** * C51 *)
Section Fixing.
  Context (dbg : bool) (sort : list (text * suggestion) -> out (list (text * suggestion))) (cf : config).
  Hypothesis (C : sorts sort).

  (** What is left after any number of rounds. *)
  Lemma layout_loop rules : incl rules layout_rules -> forall n i src t rs dirty,
    parse_file dbg src = Done (t, []) -> directives_name_rules t -> run_rules cf rules t = Done rs ->
    match fix_loop dbg sort cf n i (mkFile src t [] rules) rs dirty with
    | Ok (fc, _, _, _) => same_lines src (fc_source fc) /\ parse_file dbg (fc_source fc) = Done (fc_tree fc, [])
    | Err MaxApplyIteration => True
    | Err _ => ~ NoDup (map rl_name rules)
    | Crash => exists l, sort l = Crashed
    end.
  Proof.
    intros I. induction n as [|n IH]; intros i src t rs dirty P D R; [exact Logic.I|]. cbn [fix_loop].
    destruct (rule_suggestions rs) as [|x l] eqn:E; [split; [reflexivity|exact P]|]. rewrite <- E.
    destruct (sort (rule_suggestions rs)) as [sorted|] eqn:HS; [|eauto].
    destruct (select_suggestions sorted) as [e|chosen] eqn:Sel.
    - unfold select_suggestions in Sel. destruct (overlapping_rules sorted) as [name|] eqn:O; [|discriminate].
      injection Sel as <-. intros N. exact (no_collision dbg src t cf P D _ _ _ _ _ C I N R HS O).
    - cbn [fc_source fc_rules]. destruct (round dbg src t cf P D _ _ _ _ _ C I R HS Sel) as (new & -> & SL).
      destruct (same_lines_parsed _ _ _ _ P SL) as (t' & P' & B). rewrite P'.
      assert (R' : exists rs', run_rules cf rules t' = Done rs').
      { eapply C14_rules_never_crash; [exact P'|]. intros r Hr. destruct (I r Hr) as [<-|[<-|[]]]; cbn [In RULE_DEFINITIONS]; tauto. }
      destruct R' as (rs' & R'). rewrite R'.
      specialize (IH (S i) new t' rs' true P' (bare_directives _ _ B D) R').
      destruct (fix_loop dbg sort cf n (S i) (mkFile new t' [] rules) rs' true) as [[[[fc ?] ?] ?]|e|]; [|exact IH|exact IH].
      destruct IH as [IH1 IH2]. split; [|exact IH2]. unfold same_lines in *. congruence.
  Qed.
End Fixing.

(** Fixing only indentation and white space on empty lines changes nothing but blanks and tabs at
    the start of lines, and what is written parses without errors to the same tree up to white
    space - for every template without syntax errors and without directives that switch
    everything off, whatever the configuration. *)
Theorem C51_layout_fixes_keep_the_template : forall dbg sort cf inspect write_ok rules src t effects o,
  sorts sort -> incl rules layout_rules -> parse_file dbg src = Done (t, []) -> directives_name_rules t ->
  run_analysis dbg sort cf true inspect write_ok rules src = (effects, o) ->
  forall new, In (WriteFile new) effects ->
  same_lines src new /\ exists t', parse_file dbg new = Done (t', []) /\ bare t = bare t'.
Proof.
  intros dbg sort cf inspect write_ok rules src t effects o C I P D A new W.
  assert (NW : forall b fc rs, ~ In (WriteFile new) (produce_diagnostics b fc rs ++ [Send OutputStderrMessage])).
  { intros b fc rs H. unfold produce_diagnostics in H. rewrite !in_app_iff, !in_map_iff in H.
    destruct H as [[H|[(x & H & _)|(x & H & _)]]|[H|[]]]; try discriminate H. destruct b; [destruct H as [H|[]]; discriminate H|destruct H]. }
  unfold run_analysis in A. rewrite P in A.
  set (active := get_file_active_rules (root_elem t) rules) in *.
  assert (IA : incl active layout_rules).
  { unfold active, get_file_active_rules. destruct (disabled_rules _ _); [|intros x []]. intros x Hx. apply filter_In in Hx. apply I, Hx. }
  destruct (run_rules cf active t) as [rs|] eqn:R; [|injection A as <- _; destruct W].
  pose proof (layout_loop dbg sort cf C active IA 10 0 src t rs false P D R) as L. unfold iteratively_apply_suggestions in A.
  destruct (fix_loop dbg sort cf 10 0 (mkFile src t [] active) rs false) as [[[[fc rs'] dirty] j]|e|];
    [|injection A as <- _; destruct W|injection A as <- _; destruct W].
  assert (G : same_lines src (fc_source fc) /\ exists t', parse_file dbg (fc_source fc) = Done (t', []) /\ bare t = bare t').
  { destruct L as [L1 L2]. split; [exact L1|]. exact (same_lines_parsed _ _ _ _ P L1). }
  destruct dirty; [destruct write_ok|]; injection A as <- _.
  - destruct W as [[= <-]|W]; [exact G|]. destruct (NW _ _ _ W).
  - destruct W as [[= <-]|[]]. exact G.
  - destruct (NW _ _ _ W).
Qed.

(** And these fixes never fail with a collision or a crash: the only failures left are a file that
    cannot be written and more than ten rounds. *)
Theorem C51_layout_fixes_never_collide : forall dbg sort cf inspect write_ok rules src t effects o,
  sorts sort -> (forall l, sort l <> Crashed) -> incl rules layout_rules -> NoDup (map rl_name rules) ->
  parse_file dbg src = Done (t, []) -> directives_name_rules t ->
  run_analysis dbg sort cf true inspect write_ok rules src = (effects, o) ->
  o = Ok tt \/ o = Err MaxApplyIteration \/ (o = Err FileWrite /\ write_ok = false).
Proof.
  intros dbg sort cf inspect write_ok rules src t effects o C NC I N P D A.
  unfold run_analysis in A. rewrite P in A.
  set (active := get_file_active_rules (root_elem t) rules) in *.
  assert (IA : incl active layout_rules /\ NoDup (map rl_name active)).
  { unfold active, get_file_active_rules. destruct (disabled_rules _ _) as [dis|]; [|split; [intros x []|constructor]]. split.
    - intros x Hx. apply filter_In in Hx. apply I, Hx.
    - clear -N. induction rules as [|r rules IH]; [constructor|]. cbn [map filter] in *. inversion N as [|? ? N1 N2]; subst.
      destruct (negb _); [|auto]. cbn [map]. constructor; [|auto]. intros H. apply N1. apply in_map_iff in H as (x & <- & H).
      apply filter_In in H as [H _]. apply in_map. exact H. }
  destruct IA as [IA NA].
  destruct (C14_rules_never_crash cf _ _ _ _ active P) as (rs & R).
  { intros r Hr. destruct (IA r Hr) as [<-|[<-|[]]]; cbn [In RULE_DEFINITIONS]; tauto. }
  rewrite R in A.
  pose proof (layout_loop dbg sort cf C active IA 10 0 src t rs false P D R) as L. unfold iteratively_apply_suggestions in A.
  destruct (fix_loop dbg sort cf 10 0 (mkFile src t [] active) rs false) as [[[[fc rs'] dirty] j]|e|].
  - destruct dirty; [destruct write_ok|]; injection A as _ <-; auto.
  - injection A as _ <-. destruct e; [| |auto|]; contradiction.
  - destruct L as (l & L). destruct (NC l L).
Qed.

(** A template with elements, a block, attributes over several lines, an empty line with white space,
    tabs, and a directive. *)
Definition untidy : text :=
  txt "<div>"%string ++ [10%N] ++ txt "<p a=""1"""%string ++ [10%N; 9%N] ++ txt "b>  x</p>"%string ++ [10%N; 9%N; 32%N; 10%N]
  ++ txt "{% block c %}"%string ++ [13%N; 10%N] ++ txt "{# ludtwig-ignore twig-valid-function #}"%string ++ [10%N]
  ++ txt "      {{ f(1) }} y"%string ++ [10%N] ++ txt "{% endblock %}"%string ++ [10%N] ++ txt "  </div>"%string.
Definition tidy : text :=
  txt "<div>"%string ++ [10%N] ++ txt "    <p a=""1"""%string ++ [10%N] ++ txt "       b>  x</p>"%string ++ [10%N; 10%N]
  ++ txt "    {% block c %}"%string ++ [13%N; 10%N] ++ txt "        {# ludtwig-ignore twig-valid-function #}"%string ++ [10%N]
  ++ txt "        {{ f(1) }} y"%string ++ [10%N] ++ txt "    {% endblock %}"%string ++ [10%N] ++ txt "</div>"%string.
Fixpoint named_directives (t : tree) : bool :=
  match t with
  | Leaf _ _ => true
  | Node k cs => (negb (kind_eqb k LUDTWIG_DIRECTIVE_IGNORE) || negb (Nat.eqb (length (tree_rules (Node k cs))) 0))
                 && forallb named_directives cs
  end.
Lemma named_directives_sound t : named_directives t = true -> directives_name_rules t.
Proof.
  intros H cs S. remember (Node _ cs) as x eqn:E. induction S as [|k cs' y Hy S IH].
  - subst. cbn [named_directives] in H. apply andb_true_iff in H as [H _]. rewrite kind_eqb_refl in H. cbn [negb orb] in H.
    intros Q. rewrite Q in H. discriminate H.
  - cbn [named_directives] in H. apply andb_true_iff in H as [_ H]. rewrite forallb_forall in H. auto.
Qed.
Fixpoint has_directive (t : tree) : bool :=
  match t with Leaf _ _ => false | Node k cs => kind_eqb k LUDTWIG_DIRECTIVE_IGNORE || existsb has_directive cs end.
Example C51_case : exists t, sorts insertion_sort /\ NoDup (map rl_name layout_rules) /\
  parse_file true untidy = Done (t, []) /\ directives_name_rules t /\ has_directive t = true /\
  exists rest, run_analysis true insertion_sort default_config true false true layout_rules untidy = (WriteFile tidy :: rest, Ok tt).
Proof.
  assert (E : match parse_file true untidy with Done (t, []) => named_directives t && has_directive t | _ => false end
    && match run_analysis true insertion_sort default_config true false true layout_rules untidy with
       | (WriteFile s :: _, Ok tt) => text_eqb s tidy | _ => false end = true) by (vm_compute; reflexivity).
  apply andb_true_iff in E as [E1 E2].
  destruct (parse_file true untidy) as [[t [|? ?]]|] eqn:P; try discriminate E1. apply andb_true_iff in E1 as [E0 E1].
  exists t. split; [exact insertion_sort_sorts|]. split; [constructor; [intros [H|[]]; discriminate H|constructor; [intros []|constructor]]|].
  split; [reflexivity|]. split; [now apply named_directives_sound|]. split; [exact E1|].
  destruct (run_analysis true insertion_sort default_config true false true layout_rules untidy) as [[|[ev| |s] rest] o];
    try discriminate E2. destruct o as [[]| |]; try discriminate E2. apply text_eqb_eq in E2. subst s. eauto.
Qed.

(** In a template with syntax errors more than the start of lines may change: here the blank in a
    stray ending tag, because the walk skips the error node at the start of the line and takes the next
    token for the first one. *)
Theorem C51_layout_fixes_keep_broken_templates_refuted :
  exists src new t errs rest, sorts insertion_sort /\ parse_file true src = Done (t, errs) /\ directives_name_rules t /\
    run_analysis true insertion_sort default_config true false true layout_rules src = (WriteFile new :: rest, Ok tt) /\
    ~ same_lines src new.
Proof.
  set (src := txt "{% endblock %} x"%string). set (new := txt "{%endblock %} x"%string). exists src, new.
  assert (E : match parse_file true src with Done (t, errs) => named_directives t | _ => false end
    && match run_analysis true insertion_sort default_config true false true layout_rules src with
       | (WriteFile s :: _, Ok tt) => text_eqb s new | _ => false end = true) by (vm_compute; reflexivity).
  apply andb_true_iff in E as [E1 E2].
  destruct (parse_file true src) as [[t errs]|] eqn:P; try discriminate E1. exists t, errs.
  destruct (run_analysis true insertion_sort default_config true false true layout_rules src) as [[|[ev| |s] rest] o];
    try discriminate E2. destruct o as [[]| |]; try discriminate E2. apply text_eqb_eq in E2. subst s. exists rest.
  split; [exact insertion_sort_sorts|]. split; [reflexivity|]. split; [now apply named_directives_sound|]. split; [reflexivity|].
  intros H. vm_compute in H. discriminate H.
Qed.

Print Assumptions C51_layout_fixes_keep_the_template.
Print Assumptions C51_layout_fixes_never_collide.
Print Assumptions C51_layout_fixes_keep_broken_templates_refuted.
