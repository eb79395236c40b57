(** Property theorems: what the rule about line breaks around blocks reports, C60. *)
From Coq Require Import NArith String Bool Arith Lia List.
Import ListNotations.
From Verif Require Import Text Kind Lexer LexerProofs ParserApi Machine TreeSpec.
From Verif Require Schema Skeleton PropShape PropSkel PropParser PropIndent.
From Verif Require Import Red Typed Rule Rules Check DefaultConfig RedFacts WalkSpec PropRun PropOff Found FoundRun PropFound PropFound3.
Local Notation length := List.length (only parsing).
Local Open Scope list_scope.

(** * The specification *)

(** Comments (directives are comments). *)
Definition a_comment (e : elem) : Prop :=
  el_kind e = TWIG_COMMENT \/ el_kind e = HTML_COMMENT \/ el_kind e = LUDTWIG_DIRECTIVE_FILE_IGNORE \/ el_kind e = LUDTWIG_DIRECTIVE_IGNORE.

(** The nodes before (nearest first) and after [b] among the children of its parent [p]. *)
Definition around (p b : elem) (before after : list elem) : Prop :=
  parent b = Some p /\ child_nodes p = rev before ++ b :: after.
(** The nearest one that is not the comment of the block. *)
Definition nearest (l : list elem) (o : option elem) : Prop :=
  (exists c r, l = c :: r /\ a_comment c /\ o = hd_error r) \/ (o = hd_error l /\ forall c r, l = c :: r -> ~ a_comment c).

(** Where the block, with its comment in front, begins. *)
Definition leads (before : list elem) (start lead : elem) : Prop :=
  (exists c r, before = c :: r /\ a_comment c /\ lead = c) \/ (lead = start /\ forall c r, before = c :: r -> ~ a_comment c).

(** How many line breaks are wanted around blocks by the configuration. *)
Definition gap (cf : config) : nat := if linebreaks_around_blocks cf then 2 else 1.
(** [n] line breaks as configured. *)
Definition line_breaks (cf : config) (n : nat) : text :=
  concat (repeat (match cf_line_ending cf with UnixLF => [10%N] | WindowsCRLF => [13%N; 10%N] end) n).

(** At [side] of the block [b] there must be [n] line breaks, and [x] is the token there: the first
    one of the block or its comment, or the next one after the end of the block.  A block on top of
    the file is left alone.  Nothing is said about the end of a block that is followed by
    a block, as the beginning of that one is looked at. *)
Inductive side : Set := Before | After.
Definition wanted_at (cf : config) (b : elem) (s : side) (x : elem) (n : nat) : Prop :=
  exists p before after prev next start ending,
    around p b before after /\ nearest before prev /\ nearest after next /\
    starting_block b = Some start /\ ending_block b = Some ending /\
    ~ (el_kind p = ROOT /\ prev = None) /\
    match s with
    | Before => exists lead, leads before start lead /\ first_token lead = Some x /\
                  n = match prev with Some _ => gap cf | None => 1 end
    | After => (exists l, last_token ending = Some l /\ next_token l = Some x) /\
                 (forall b', next = Some b' -> el_kind b' <> TWIG_BLOCK) /\
                 n = match after with _ :: _ => gap cf | [] => 1 end
    end.

(** Another token, or line breaks that are not the wanted ones. *)
Definition wrong_at (cf : config) (b : elem) (s : side) : Prop :=
  exists x n, wanted_at cf b s x n /\ ~ (el_kind x = TK_LINE_BREAK /\ el_text x = line_breaks cf n).
(** The line breaks are replaced, or added in front of the token. *)
Definition gap_report (cf : config) (bs : elem * side) (r : shown) : Prop :=
  exists x n, wanted_at cf (fst bs) (snd bs) x n /\
    ((el_kind x = TK_LINE_BREAK /\ r = mkShown SHelp (Some (el_start x, el_end x)) [(el_start x, el_end x, line_breaks cf n)]) \/
     (el_kind x <> TK_LINE_BREAK /\ r = mkShown SHelp (Some (el_start x, el_start x)) [(el_start x, el_start x, line_breaks cf n)])).

(** * Facts *)

Lemma next_of_list k o p : forall r t off l,
  until_node next_sibling_or_token (length r) (mkElem t off (mkCrumb k o l r :: p))
  = hd_error (filter (fun c => is_node (el_tree c)) (elems_of k o p (t :: l) (off + tree_len t) r)).
Proof.
  induction r as [|x r IH]; intros t off l; [reflexivity|].
  cbn [length until_node next_sibling_or_token el_path cr_right el_tree cr_kind cr_off cr_left el_off elems_of filter].
  destruct (is_node x); [reflexivity|]. apply IH.
Qed.
Lemma siblings_of_list k o p : forall l t r, exists before,
  elems_of k o p [] o (rev l ++ t :: r)
    = rev before ++ mkElem t (o + trees_len l) (mkCrumb k o l r :: p) :: elems_of k o p (t :: l) (o + trees_len l + tree_len t) r /\
  until_node prev_sibling_or_token (length l) (mkElem t (o + trees_len l) (mkCrumb k o l r :: p))
    = hd_error (filter (fun c => is_node (el_tree c)) before).
Proof.
  induction l as [|x l IH]; intros t r.
  - exists []. cbn [rev app elems_of length until_node filter hd_error]. unfold trees_len. cbn [fold_right].
    rewrite !Nat.add_0_r. split; reflexivity.
  - destruct (IH x (t :: r)) as (before & E1 & E2). exists (mkElem x (o + trees_len l) (mkCrumb k o l (t :: r) :: p) :: before). split.
    + cbn [rev]. rewrite <- app_assoc. cbn [app]. rewrite E1. rewrite <- app_assoc. cbn [app elems_of]. f_equal. f_equal.
      assert (L : o + trees_len l + tree_len x = o + trees_len (x :: l)) by (unfold trees_len; cbn [fold_right]; lia).
      rewrite L. reflexivity.
    + cbn [length until_node prev_sibling_or_token el_path cr_left el_tree cr_kind cr_off cr_right el_off].
      assert (L : o + trees_len (x :: l) - tree_len x = o + trees_len l) by (unfold trees_len; cbn [fold_right]; lia).
      rewrite L. cbn [filter el_tree]. destruct (is_node x); [reflexivity|]. exact E2.
Qed.
Lemma filter_rev {A} (f : A -> bool) l : filter f (rev l) = rev (filter f l).
Proof.
  induction l as [|x l IH]; [reflexivity|]. cbn [rev]. rewrite filter_app, IH. cbn [filter]. destruct (f x); [reflexivity|apply app_nil_r].
Qed.
Lemma around_exists t b p : In b (elements t) -> is_node (el_tree b) = true -> parent b = Some p ->
  exists before after, around p b before after /\ prev_sibling b = hd_error before /\ next_sibling b = hd_error after.
Proof.
  intros Hb N P. destruct (elements_within _ _ Hb) as [_ H2]. destruct b as [x off [|[k o l r] path]]; [discriminate P|].
  unfold parent in P. cbn [el_path el_tree el_off cr_kind cr_left cr_right cr_off] in P. cbn [placed el_path el_off cr_off cr_left] in H2.
  destruct H2 as [-> _]. destruct (siblings_of_list k o path l x r) as (before & E1 & E2).
  exists (filter (fun c => is_node (el_tree c)) before), (filter (fun c => is_node (el_tree c)) (elems_of k o path (x :: l) (o + trees_len l + tree_len x) r)).
  split; [|split].
  - split; [exact P|]. apply (f_equal (fun q => match q with Some q => q | None => p end)) in P. cbn iota in P. subst p.
    unfold child_nodes, children_with_tokens. cbn [el_tree el_off el_path]. rewrite rev_append_rev, E1, filter_app, filter_rev. cbn [filter el_tree].
    cbn [el_tree] in N. rewrite N. reflexivity.
  - exact E2.
  - unfold next_sibling, right_count. cbn [el_path cr_right]. apply next_of_list.
Qed.

Lemma nodup_split {A} : forall (l1 : list A) x l2 m1 m2, NoDup (l1 ++ x :: l2) -> l1 ++ x :: l2 = m1 ++ x :: m2 -> l1 = m1 /\ l2 = m2.
Proof.
  induction l1 as [|a l1 IH]; intros x l2 m1 m2 N E; destruct m1 as [|b m1]; cbn [app] in E.
  - injection E as E. auto.
  - injection E as -> E2. subst. inversion N as [|? ? N1 N2]; subst. exfalso. apply N1. apply in_or_app. right. now left.
  - injection E as -> E2. inversion N as [|? ? N1 N2]; subst. exfalso. apply N1. apply in_or_app. right. now left.
  - injection E as -> E2. inversion N; subst. destruct (IH x l2 m1 m2) as [-> ->]; auto.
Qed.
Lemma around_unique p p' b before before' after after' : around p b before after -> around p' b before' after' ->
  p = p' /\ before = before' /\ after = after'.
Proof.
  intros [P E] [P' E']. assert (p = p') as <- by (rewrite P in P'; now injection P'). split; [reflexivity|].
  rewrite E in E'. apply nodup_split in E' as [H1 H2].
  - split; [|exact H2]. apply (f_equal (@rev elem)) in H1. now rewrite !rev_involutive in H1.
  - rewrite <- E. apply NoDup_filter, children_nodup.
Qed.
Lemma comment_spec e : is_comment_kind (el_kind e) = true <-> a_comment e.
Proof.
  unfold a_comment. split.
  - destruct (el_kind e); intros H; try discriminate H; auto.
  - intros [H|[H|[H|H]]]; rewrite H; reflexivity.
Qed.
Lemma comment_false e : is_comment_kind (el_kind e) = false <-> ~ a_comment e.
Proof. rewrite <- comment_spec. destruct (is_comment_kind (el_kind e)); intuition discriminate. Qed.
Lemma nearest_unique l o o' : nearest l o -> nearest l o' -> o = o'.
Proof.
  intros [(c & r & -> & C & ->)|[-> N]] [(c' & r' & E & C' & ->)|[-> N']].
  - injection E as <- <-. reflexivity.
  - destruct (N' c r eq_refl C).
  - subst l. destruct (N c' r' eq_refl C').
  - reflexivity.
Qed.
Lemma leads_unique l s x x' : leads l s x -> leads l s x' -> x = x'.
Proof.
  intros [(c & r & -> & C & ->)|[-> N]] [(c' & r' & E & C' & ->)|[-> N']].
  - injection E as <- <-. reflexivity.
  - destruct (N' c r eq_refl C).
  - subst l. destruct (N c' r' eq_refl C').
  - reflexivity.
Qed.

Lemma rev_split {A} (l1 : list A) x y l2 : rev (y :: l1) ++ x :: l2 = rev l1 ++ y :: x :: l2.
Proof. cbn [rev]. now rewrite <- app_assoc. Qed.
(** The siblings of the siblings. *)
Lemma around_before p b c before after : around p b (c :: before) after -> around p c before (b :: after).
Proof.
  intros [P E]. split; [|rewrite E; apply rev_split]. apply child_parent. unfold child_nodes in E.
  assert (I : In c (filter (fun c => is_node (el_tree c)) (children_with_tokens p))).
  { rewrite E, rev_split. apply in_or_app. right. now left. }
  now apply filter_In in I.
Qed.
Lemma around_after p b c before after : around p b before (c :: after) -> around p c (b :: before) after.
Proof.
  intros [P E]. split; [|rewrite E; symmetry; apply rev_split]. apply child_parent. unfold child_nodes in E.
  assert (I : In c (filter (fun c => is_node (el_tree c)) (children_with_tokens p))).
  { rewrite E. apply in_or_app. right. right. now left. }
  now apply filter_In in I.
Qed.
Lemma around_element t p b before after c : In b (elements t) -> around p b before after -> In c before \/ In c after ->
  In c (elements t) /\ is_node (el_tree c) = true.
Proof.
  intros Hb [P E] Hc. assert (I : In c (child_nodes p)).
  { rewrite E. apply in_or_app. destruct Hc as [Hc|Hc]; [left; now apply -> in_rev|right; now right]. }
  apply filter_In in I as [I N]. split; [|exact N]. destruct (elem_parent t b Hb) as [->|(q & Q & Hq & _)]; [discriminate P|].
  rewrite P in Q. injection Q as <-. apply within_elements. eapply within_children; [apply elements_within; exact Hq|exact I].
Qed.
Lemma siblings_around t p b before after : In b (elements t) -> is_node (el_tree b) = true -> around p b before after ->
  prev_sibling b = hd_error before /\ next_sibling b = hd_error after.
Proof.
  intros Hb N A. destruct (around_exists t b p Hb N (proj1 A)) as (be & af & A' & H1 & H2).
  destruct (around_unique _ _ _ _ _ _ _ A A') as (_ & -> & ->). auto.
Qed.

Section Block.
  Context (t : tree) (b p : elem) (before after : list elem).
  Hypothesis Hb : In b (elements t).
  Hypothesis Nb : is_node (el_tree b) = true.
  Hypothesis A : around p b before after.

  Lemma real_prev_spec : exists o, nearest before o /\
    (let? n := prev_sibling b in if is_comment_kind (el_kind n) then prev_sibling n else Some n) = o.
  Proof.
    destruct (siblings_around t p b before after Hb Nb A) as [-> _]. destruct before as [|c r].
    - exists None. split; [|reflexivity]. right. split; [reflexivity|]. intros; discriminate.
    - cbn [hd_error obind]. destruct (is_comment_kind (el_kind c)) eqn:C.
      + exists (hd_error r). split; [left; exists c, r; split; [reflexivity|]; split; [now apply comment_spec|reflexivity]|].
        destruct (around_element t p b _ _ c Hb A (or_introl (or_introl eq_refl))) as [Hc Nc].
        exact (proj1 (siblings_around t p c r (b :: after) Hc Nc (around_before _ _ _ _ _ A))).
      + exists (Some c). split; [|reflexivity]. right. split; [reflexivity|]. intros c' r' [= <- <-]. now apply comment_false.
  Qed.
  Lemma real_next_spec : exists o, nearest after o /\
    (let? n := next_sibling b in if is_comment_kind (el_kind n) then next_sibling n else Some n) = o.
  Proof.
    destruct (siblings_around t p b before after Hb Nb A) as [_ ->]. destruct after as [|c r].
    - exists None. split; [|reflexivity]. right. split; [reflexivity|]. intros; discriminate.
    - cbn [hd_error obind]. destruct (is_comment_kind (el_kind c)) eqn:C.
      + exists (hd_error r). split; [left; exists c, r; split; [reflexivity|]; split; [now apply comment_spec|reflexivity]|].
        destruct (around_element t p b _ _ c Hb A (or_intror (or_introl eq_refl))) as [Hc Nc].
        exact (proj2 (siblings_around t p c (b :: before) r Hc Nc (around_after _ _ _ _ _ A))).
      + exists (Some c). split; [|reflexivity]. right. split; [reflexivity|]. intros c' r' [= <- <-]. now apply comment_false.
  Qed.
  Lemma lead_spec start : leads before start
    (match prev_sibling b with Some n => if is_comment_kind (el_kind n) then n else start | None => start end).
  Proof.
    destruct (siblings_around t p b before after Hb Nb A) as [-> _]. destruct before as [|c r]; cbn [hd_error].
    - right. split; [reflexivity|]. intros; discriminate.
    - destruct (is_comment_kind (el_kind c)) eqn:C.
      + left. exists c, r. split; [reflexivity|]. split; [now apply comment_spec|reflexivity].
      + right. split; [reflexivity|]. intros c' r' [= <- <-]. now apply comment_false.
  Qed.
End Block.

(** What the rule looks at is what is wanted. *)
Lemma block_checked t cf ctx b : In b (elements t) -> a_node TWIG_BLOCK b -> cx_config ctx = cf -> cx_sensitive ctx = false ->
  match check_block_line_breaks ctx b with
  | Some l => exists o1 n1 o2 n2,
      l = flat_map (check_line_break (txt "twig-block-line-breaks"%string)) [(o1, line_breaks cf n1, n1); (o2, line_breaks cf n2, n2)] /\
      (forall x n, wanted_at cf b Before x n <-> o1 = Some x /\ n = n1) /\
      (forall x n, wanted_at cf b After x n <-> o2 = Some x /\ n = n2)
  | None => forall s x n, ~ wanted_at cf b s x n
  end.
Proof.
  intros Hb K Hc Hs. assert (Nb : is_node (el_tree b) = true) by (destruct K as (cs & ->); reflexivity).
  unfold check_block_line_breaks. rewrite Hs, (cast_node _ _ K). cbn [obind].
  destruct (parent b) as [p|] eqn:P.
  2: { intros s x n (p & be & af & pr & ne & st & en & [A _] & _). rewrite P in A. discriminate A. }
  destruct (around_exists t b p Hb Nb P) as (before & after & A & S1 & S2).
  destruct (real_prev_spec t b p before after Hb Nb A) as (prev & N1 & E1).
  destruct (real_next_spec t b p before after Hb Nb A) as (next & N2 & E2).
  rewrite E1, E2. clear E1 E2.
  destruct (kind_eqb (el_kind p) ROOT && is_none prev) eqn:T.
  { intros s x n (p' & be & af & pr & ne & st & en & A' & N1' & _ & _ & _ & H & _). apply H.
    destruct (around_unique _ _ _ _ _ _ _ A A') as (<- & <- & <-). rewrite <- (nearest_unique _ _ _ N1 N1').
    apply andb_true_iff in T as [T1 T2]. apply kind_eqb_eq in T1. split; [exact T1|]. destruct prev; [discriminate T2|reflexivity]. }
  destruct (starting_block b) as [st|] eqn:Est; cbn [obind].
  2: { intros s x n (p' & be & af & pr & ne & st & en & _ & _ & _ & X & _). rewrite Est in X. discriminate X. }
  destruct (ending_block b) as [en|] eqn:Een; cbn [obind].
  2: { intros s x n (p' & be & af & pr & ne & st' & en & _ & _ & _ & _ & X & _). rewrite Een in X. discriminate X. }
  pose proof (lead_spec t b p before after Hb Nb A st) as L. revert L.
  generalize (match prev_sibling b with Some n => if is_comment_kind (el_kind n) then n else st | None => st end). intros lead L.
  assert (NT : ~ (el_kind p = ROOT /\ prev = None)).
  { intros [X Y]. subst prev. apply kind_eqb_eq in X. rewrite X in T. discriminate T. }
  eexists _, _, _, _. split; [unfold line_breaks; rewrite Hc; reflexivity|]. split; intros x n.
  - split.
    + intros (p' & be & af & pr & ne & st' & en' & A' & N1' & N2' & X1 & X2 & _ & lead' & L' & F & ->).
      rewrite Est in X1. injection X1 as <-.
      destruct (around_unique _ _ _ _ _ _ _ A A') as (<- & <- & <-). rewrite <- (nearest_unique _ _ _ N1 N1').
      rewrite (leads_unique _ _ _ _ L L'). auto.
    + intros [F ->]. exists p, before, after, prev, next, st, en. repeat (split; [assumption|]). exists lead. auto.
  - rewrite S2. split.
    + intros (p' & be & af & pr & ne & st' & en' & A' & N1' & N2' & X1 & X2 & _ & (l & Hl & Hn) & B & ->).
      rewrite Een in X2. injection X2 as <-.
      destruct (around_unique _ _ _ _ _ _ _ A A') as (<- & <- & <-). rewrite (nearest_unique _ _ _ N2 N2').
      rewrite Hl. cbn [obind]. rewrite Hn. cbn [obind]. split; [|unfold gap; destruct after; reflexivity].
      destruct ne as [b'|]; [|reflexivity]. specialize (B b' eq_refl). destruct (kind_eqb (el_kind b') TWIG_BLOCK) eqn:X; [|reflexivity].
      apply kind_eqb_eq in X. contradiction.
    + intros [F ->]. exists p, before, after, prev, next, st, en. repeat (split; [assumption|]).
      destruct (last_token en) as [l|]; cbn [obind] in F; [|discriminate F].
      destruct (next_token l) as [y|] eqn:Y; cbn [obind] in F; [|discriminate F].
      destruct next as [b'|].
      * destruct (kind_eqb (el_kind b') TWIG_BLOCK) eqn:X; cbn [negb] in F; [discriminate F|]. injection F as <-.
        split; [eauto|]. split; [|unfold gap; destruct after; reflexivity]. intros b'' [= <-] Z. rewrite Z in X. discriminate X.
      * injection F as <-. split; [eauto|]. split; [intros b' X; discriminate X|]. unfold gap; destruct after; reflexivity.
Qed.

(** One side of a block. *)
Lemma side_checked cf b s o n : (forall x m, wanted_at cf b s x m <-> o = Some x /\ m = n) ->
  (check_line_break (txt "twig-block-line-breaks"%string) (o, line_breaks cf n, n) = [] /\ ~ wrong_at cf b s) \/
  (exists r, check_line_break (txt "twig-block-line-breaks"%string) (o, line_breaks cf n, n) = [r] /\ wrong_at cf b s /\ gap_report cf (b, s) (show r)).
Proof.
  intros W. unfold check_line_break. destruct o as [x|].
  2: { left. split; [reflexivity|]. intros (x & m & H & _). apply W in H as [H _]. discriminate H. }
  assert (Hx : wanted_at cf b s x n) by (apply W; auto).
  destruct (kind_eqb (el_kind x) TK_LINE_BREAK) eqn:K.
  - apply kind_eqb_eq in K. destruct (text_eqb (el_text x) (line_breaks cf n)) eqn:T; cbn [negb].
    + left. split; [reflexivity|]. intros (y & m & H & N). apply W in H as [H ->]. injection H as <-. apply N. split; [exact K|].
      now apply text_eqb_eq.
    + right. eexists. split; [reflexivity|]. split.
      * exists x, n. split; [exact Hx|]. intros [_ X]. rewrite X, text_eqb_refl in T. discriminate T.
      * exists x, n. split; [exact Hx|]. left. split; [exact K|reflexivity].
  - right. eexists. split; [reflexivity|]. assert (K' : el_kind x <> TK_LINE_BREAK).
    { intros X. apply kind_eqb_eq in X. rewrite X in K. discriminate K. }
    split.
    + exists x, n. split; [exact Hx|]. intros [X _]. contradiction.
    + exists x, n. split; [exact Hx|]. right. split; [exact K'|reflexivity].
Qed.

(** * C60 *)
(** For every template, with or without syntax errors: exactly one help for each side of a block
    (outside of protected elements) where the wanted line breaks are missing, with the edit that puts
    them there. *)
Theorem C60_line_breaks_around_blocks_are_reported_exactly : forall dbg src t errs cf rules results,
  parse_src dbg src = OK (t, errs) -> incl rules RULE_DEFINITIONS -> NoDup (map rl_name rules) -> In rule_block_line_breaks rules ->
  run_rules cf rules t = Done results ->
  exactly results (txt "twig-block-line-breaks"%string)
    (fun bs => In (fst bs) (elements t) /\ visible (txt "twig-block-line-breaks"%string) (fst bs) /\ a_node TWIG_BLOCK (fst bs) /\
               ~ protected (fst bs) /\ wrong_at cf (fst bs) (snd bs))
    (gap_report cf).
Proof.
  intros dbg src t errs cf rules results HP HI HN Hin HR.
  assert (G : exactly results (rl_name rule_block_line_breaks)
    (fun bs => exists e, In e (elements t) /\ visible (rl_name rule_block_line_breaks) e /\
       (fst bs = e /\ a_node TWIG_BLOCK e /\ ~ protected e /\ wrong_at cf e (snd bs))) (gap_report cf)).
  { apply (exact_rule_flag cf rules t results HI HN HR rule_block_line_breaks Hin).
    - reflexivity.
    - reflexivity.
    - intros ctx e Hc Hs He Ne. cbn [rl_node rule_block_line_breaks].
      destruct (cx_sensitive ctx) eqn:S.
      { unfold check_block_line_breaks. rewrite S. exists []. split; [constructor|]. split; [|constructor].
        intros x. split; [intros []|]. intros (_ & _ & X & _). apply X, Hs. reflexivity. }
      assert (NP : ~ protected e) by (intros X; apply Hs in X; discriminate X).
      destruct (cast TWIG_BLOCK e) as [e'|] eqn:C.
      2: { unfold check_block_line_breaks. rewrite S, C. exists []. split; [constructor|]. split; [|constructor].
           intros x. split; [intros []|]. intros (_ & X & _). rewrite (cast_node _ _ X) in C. discriminate C. }
      apply cast_iff in C as [_ K]. pose proof (block_checked t cf ctx e He K Hc S) as B.
      destruct (check_block_line_breaks ctx e) as [l|].
      + destruct B as (o1 & n1 & o2 & n2 & -> & W1 & W2). cbn [flat_map]. rewrite app_nil_r.
        destruct (side_checked cf e Before o1 n1 W1) as [[-> X1]|(r1 & -> & X1 & Y1)];
        destruct (side_checked cf e After o2 n2 W2) as [[-> X2]|(r2 & -> & X2 & Y2)]; cbn [app].
        * exists []. split; [constructor|]. split; [|constructor]. intros [x s]. cbn [fst snd In]. split; [intros []|].
          intros (-> & _ & _ & X). destruct s; contradiction.
        * exists [(e, After)]. split; [repeat constructor; auto|]. split; [|repeat constructor; exact Y2].
          intros [x s]. cbn [fst snd In]. split; [intros [[= <- <-]|[]]; auto|].
          intros (-> & _ & _ & X). destruct s; [contradiction|auto].
        * exists [(e, Before)]. split; [repeat constructor; auto|]. split; [|repeat constructor; exact Y1].
          intros [x s]. cbn [fst snd In]. split; [intros [[= <- <-]|[]]; auto|].
          intros (-> & _ & _ & X). destruct s; [auto|contradiction].
        * exists [(e, Before); (e, After)]. split; [repeat constructor; cbn [In]; auto; intros [X|[]]; discriminate X|].
          split; [|repeat constructor; assumption].
          intros [x s]. cbn [fst snd In]. split; [intros [[= <- <-]|[[= <- <-]|[]]]; auto|].
          intros (-> & _ & _ & X). destruct s; auto.
      + exists []. split; [constructor|]. split; [|constructor]. intros [x s]. cbn [fst snd In]. split; [intros []|].
        intros (-> & _ & _ & (y & n & X & _)). exact (B s y n X).
    - intros e x (_ & (cs & X) & _). now rewrite X.
    - intros e e' x (X & _) (X' & _). now rewrite <- X, <- X'. }
  destruct G as (xs & X1 & X2 & X3). exists xs. split; [exact X1|]. split; [|exact X3].
  intros [b s]. rewrite X2. cbn [fst snd]. split.
  - intros (e & He & Hv & -> & K & P & W). auto.
  - intros (He & Hv & K & P & W). exists b. split; [exact He|]. split; [exact Hv|]. auto.
Qed.

(** The tokens are where one expects them. *)
Lemma wanted_before_place cf b x n : wanted_at cf b Before x n -> exists lead, el_start x = el_start lead /\ is_node (el_tree x) = false /\
  (lead = b \/ starting_block b = Some lead \/ a_comment lead).
Proof.
  intros (p & be & af & pr & ne & st & en & A & _ & _ & S & _ & _ & lead & L & F & _).
  apply PropIndent.first_token_at_leaf in F as [F1 F2]. exists lead. split; [exact F1|]. split; [exact F2|].
  destruct L as [(c & r & _ & C & ->)|[-> _]]; auto.
Qed.
Lemma wanted_after_place t cf b x n : In b (elements t) -> wanted_at cf b After x n ->
  exists l, is_node (el_tree x) = false /\ el_start x = el_end l /\ In l (elements t).
Proof.
  intros Hb (p & be & af & pr & ne & st & en & A & _ & _ & _ & E & _ & (l & Hl & Hn) & _).
  assert (W : within t l).
  { eapply within_last_token; [|exact Hl]. eapply within_support_child; [|exact E]. apply elements_within, Hb. }
  destruct (PropIndent.next_token_adjacent t l x W Hn) as [H1 H2]. exists l. split; [exact H2|]. split; [exact H1|].
  apply within_elements, W.
Qed.

(** A comment belongs to its block; the line breaks between two blocks are those before the second. *)
Example C60_case :
  says (txt "twig-block-line-breaks"%string) (txt "a{# c #}{% block b %}x{% endblock %}{% block d %}y{% endblock %}"%string)
  = [mkShown SHelp (Some (1, 1)) [(1, 1, [10%N; 10%N])]; mkShown SHelp (Some (36, 36)) [(36, 36, [10%N; 10%N])]].
Proof. vm_compute. reflexivity. Qed.
(** First in its element: one line break; text behind it: two; and three line breaks are too many. *)
Example C60_case_element :
  says (txt "twig-block-line-breaks"%string) (txt "<p>{% block b %}x{% endblock %}
z</p>"%string)
  = [mkShown SHelp (Some (3, 3)) [(3, 3, [10%N])]; mkShown SHelp (Some (31, 32)) [(31, 32, [10%N; 10%N])]].
Proof. vm_compute. reflexivity. Qed.
Example C60_case_breaks :
  says (txt "twig-block-line-breaks"%string) (txt "a


{% block b %}x{% endblock %}

b<p>
{% block b %}x{% endblock %}
</p>"%string)
  = [mkShown SHelp (Some (1, 4)) [(1, 4, [10%N; 10%N])]].
Proof. vm_compute. reflexivity. Qed.

Print Assumptions C60_line_breaks_around_blocks_are_reported_exactly.
