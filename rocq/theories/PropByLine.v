(** * C85: a file is read line by line

    Property theorems: tokens do not reach over the end of a line, so the tokens of a line do
    not depend on the other lines, and messages about the first lines do not depend on the rest. *)
From Coq Require Import NArith String Bool Arith Lia List.
Import ListNotations.
From Verif Require Import Text Kind Regex Lexer LexerProofs PropLexer ParserApi Machine PropLines LexLayout LexLines PropLocal.
Local Notation length := List.length (only parsing).
Local Open Scope list_scope.

(** The end of a line; a text that begins with an empty line; a token behind [d] more bytes. *)
Definition nl : N := 10.
Definition begins_with_line_break (s : text) : Prop := exists r, s = nl :: r \/ s = 13%N :: nl :: r.
Definition moved (d : nat) (t : token) : token := mkTok (tk_kind t) (tk_text t) (d + tk_start t) (d + tk_end t).

(** * Facts about lexing *)
Lemma lexed_same off s ts ts' : lexed off s ts -> lexed off s ts' -> ts = ts'.
Proof.
  intros H. revert ts'. induction H as [off|off s n k t rest Hs E Hn Et HL IH]; intros ts' H'; inversion H' as [|? ? n' k' t' rest' Hs' E' Hn' Et' HL']; subst; try contradiction; [reflexivity|].
  rewrite E in E'. injection E' as <- <-. f_equal. now apply IH.
Qed.
Lemma lexed_moved d off s ts : lexed off s ts -> lexed (d + off) s (map (moved d) ts).
Proof.
  induction 1 as [off|off s n k t rest Hs E Hn Et HL IH]; [constructor|]. cbn [map]. unfold moved at 1. cbn [tk_kind tk_text tk_start tk_end].
  rewrite Nat.add_assoc. econstructor; eauto. now rewrite <- Nat.add_assoc.
Qed.

Lemma breaks_tail l x y : breaks l = x ++ nl :: y -> exists l', y = breaks l'.
Proof.
  revert x. induction l as [|b l IH]; intros x E; [destruct x; discriminate E|]. unfold breaks in E. cbn [flat_map] in E. fold (breaks l) in E. destruct b; cbn [app] in E.
  - destruct x as [|c [|d x]]; cbn [app] in E; [discriminate E| |].
    + injection E as _ <-. eauto.
    + injection E as _ _ E. eauto.
  - destruct x as [|c x]; cbn [app] in E; [injection E as <-; eauto|]. injection E as _ E. eauto.
Qed.
Lemma breaks_begin l : breaks l <> [] -> begins_with_line_break (breaks l).
Proof. intros H. destruct l as [|[] l]; [contradiction| |]; unfold breaks; cbn [flat_map]; eexists; [right|left]; reflexivity. Qed.
Lemma begin_app x y : begins_with_line_break x -> begins_with_line_break (x ++ y).
Proof. intros (r & [-> | ->]); exists (r ++ y); auto. Qed.

(** A line break: as far as the text goes on with line breaks. *)
Lemma lb_table s n : lex_one s = (n, TK_LINE_BREAK) -> (exists l, l <> [] /\ firstn n s = breaks l) /\
  (forall p m, In (p, TK_LINE_BREAK) lex_table -> m <= length s -> pat_matches p (firstn m s) -> m <= n) /\
  exists p, In (p, TK_LINE_BREAK) lex_table /\ pat_matches p (firstn n s).
Proof.
  intros E. split; [|split].
  - destruct (one_triv s n _ E eq_refl) as [[X _]|[_ H]]; [discriminate X|exact H].
  - destruct (one_best s n _ E eq_refl) as (p & t1 & t2 & _ & _ & W & _). intros p' m. apply W.
  - destruct (one_best s n _ E eq_refl) as (p & t1 & t2 & Et & (_ & L & _) & _). exists p. split; [|exact L]. rewrite Et. apply in_or_app. right. now left.
Qed.
Lemma breaks_match l : l <> [] -> rmatch re_lb (breaks l).
Proof.
  assert (One : forall w : bool, rmatch (RAlt (RChar 10) (RSeq (RChar 13) (RChar 10))) (if w then [CR; LF] else [LF])).
  { intros []; apply (proj1 (deriv_spec _ _ _)); [apply (proj1 (deriv_spec _ _ _))|]; apply nullable_spec; vm_compute; reflexivity. }
  destruct l as [|w l]; [contradiction|]. intros _. unfold re_lb, RPlus, breaks. cbn [flat_map]. constructor; [apply One|].
  induction l as [|w' l IH]; cbn [flat_map]; [constructor|]. constructor; [apply One|exact IH].
Qed.
Lemma breaks_front l x y : breaks l = x ++ nl :: y -> exists l', l' <> [] /\ x ++ [nl] = breaks l'.
Proof.
  revert x. induction l as [|b l IH]; intros x E; [destruct x; discriminate E|]. unfold breaks in E. cbn [flat_map] in E. fold (breaks l) in E. destruct b; cbn [app] in E.
  - destruct x as [|c [|d x]]; cbn [app] in E; [discriminate E| |].
    + injection E as <- _. exists [true]. split; [discriminate|reflexivity].
    + injection E as <- <- E. destruct (IH x E) as (l' & _ & E'). exists (true :: l'). split; [discriminate|]. unfold breaks. cbn [flat_map app]. fold (breaks l'). now rewrite <- E'.
  - destruct x as [|c x]; cbn [app] in E; [exists [false]; split; [discriminate|reflexivity]|]. injection E as <- E. destruct (IH x E) as (l' & _ & E').
    exists (false :: l'). split; [discriminate|]. unfold breaks. cbn [flat_map app]. fold (breaks l'). now rewrite <- E'.
Qed.

Lemma first_line a : exists l, ~ In nl l /\ length l <= length a /\ forall b, exists v, a ++ nl :: b = l ++ nl :: v.
Proof.
  induction a as [|c a (l & Hl & Le & H)]; [exists []; cbn; split; [tauto|]; split; [lia|]; intros b; now exists b|].
  destruct (N.eq_dec c nl) as [->|Nc].
  - exists []. cbn. split; [tauto|]. split; [lia|]. intros b. now exists (a ++ nl :: b).
  - exists (c :: l). cbn [length app]. split; [intros [E|E]; [congruence|tauto]|]. split; [lia|]. intros b. destruct (H b) as (v & ->). now exists v.
Qed.
Lemma firstn_inside (a w : text) n : n <= length a -> firstn n (a ++ w) = firstn n a.
Proof. intros H. rewrite firstn_app. replace (n - length a) with 0 by lia. cbn [firstn]. apply app_nil_r. Qed.
Lemma skipn_inside (a w : text) n : n <= length a -> skipn n (a ++ w) = skipn n a ++ w.
Proof. intros H. rewrite skipn_app. replace (n - length a) with 0 by lia. reflexivity. Qed.
Lemma lexed_step off s ts n k : lexed off s ts -> lex_one s = (n, k) -> s <> [] -> 1 <= n <= length s /\
  exists rest, ts = mkTok k (firstn n s) off (off + blen (firstn n s)) :: rest /\ lexed (off + blen (firstn n s)) (skipn n s) rest.
Proof.
  intros H E Ne. inversion H as [|? ? n' k' t' rest Hs E' Hn Et HL]; subst; [contradiction|]. rewrite E in E'. injection E' as <- <-. split; [exact Hn|]. eauto.
Qed.

Lemma line_break_here s l v : s = l ++ nl :: v -> l = [] \/ l = [13%N] -> exists n, lex_one s = (n, TK_LINE_BREAK) /\ 1 <= n <= length s.
Proof.
  intros -> Hl. assert (X : exists c s', l ++ nl :: v = c :: s' /\ snd (lex_one (c :: s')) = TK_LINE_BREAK).
  { destruct Hl as [-> | ->]; cbn [app].
    - exists nl, v. split; [reflexivity|]. apply one_break. left. reflexivity.
    - exists 13%N, (nl :: v). split; [reflexivity|]. apply one_break. right. split; [reflexivity|]. exists v. reflexivity. }
  destruct X as (c & s' & -> & X). pose proof (lex_one_bounds c s') as B. revert X B. generalize (lex_one (c :: s')). intros [n k] X B. cbn [fst snd] in *. exists n. rewrite <- X. auto.
Qed.
(** The tokens up to the end of a line are those of the text up to there. *)
Lemma line_tokens : forall m a b off ts, length a <= m -> lexed off (a ++ nl :: b) ts ->
  exists pre t t' post, lexed off (a ++ [nl]) (pre ++ [t]) /\ ts = pre ++ t' :: post /\
    tk_kind t = TK_LINE_BREAK /\ tk_kind t' = TK_LINE_BREAK /\ tk_start t' = tk_start t /\
    (~ begins_with_line_break b -> t' = t /\ lexed (off + blen (a ++ [nl])) b post).
Proof.
  induction m as [m IH] using (well_founded_induction Wf_nat.lt_wf). intros a b off ts Hm HL.
  assert (Step : forall n k, 1 <= n <= length a -> lex_one (a ++ nl :: b) = (n, k) -> lex_one (a ++ [nl]) = (n, k) ->
    exists pre t t' post, lexed off (a ++ [nl]) (pre ++ [t]) /\ ts = pre ++ t' :: post /\
    tk_kind t = TK_LINE_BREAK /\ tk_kind t' = TK_LINE_BREAK /\ tk_start t' = tk_start t /\
    (~ begins_with_line_break b -> t' = t /\ lexed (off + blen (a ++ [nl])) b post)).
  { intros n k Hn E E0. destruct (lexed_step _ _ _ _ _ HL E) as (_ & rest & -> & HR); [destruct a; discriminate|].
    rewrite firstn_inside, skipn_inside in HR by lia. rewrite firstn_inside by lia.
    destruct (IH (length (skipn n a))) with (a := skipn n a) (b := b) (off := off + blen (firstn n a)) (ts := rest) as (pre & t & t' & post & H1 & H2 & H3 & H4 & H5 & H6); [rewrite skipn_length; lia|lia|exact HR|].
    exists (mkTok k (firstn n a) off (off + blen (firstn n a)) :: pre), t, t', post. split; [|split; [now rewrite H2|]]; [|split; [exact H3|split; [exact H4|split; [exact H5|]]]].
    - cbn [app]. econstructor; [destruct a; discriminate|exact E0|rewrite app_length; cbn [length]; lia|now rewrite firstn_inside by lia|]. rewrite skipn_inside by lia. exact H1.
    - intros Nb. destruct (H6 Nb) as [-> H7]. split; [reflexivity|]. replace (off + blen (a ++ [nl])) with (off + blen (firstn n a) + blen (skipn n a ++ [nl])); [exact H7|].
      rewrite <- (firstn_skipn n a) at 3. rewrite !blen_app. lia. }
  destruct (first_line a) as (l & Hl & Le & Hf). destruct (Hf b) as (v & Ev), (Hf []) as (v0 & Ev0).
  destruct (list_eq_dec N.eq_dec l []) as [El|Nl]; [|destruct (list_eq_dec N.eq_dec l [13%N]) as [El|Nl2]].
  3: { destruct (one_local l v v0 Nl Nl2 Hl) as [E Ln]. destruct (lex_one (a ++ nl :: b)) as [n k] eqn:E1. rewrite Ev in E1. unfold nl in *. rewrite E1 in E, Ln. cbn [fst] in Ln.
       apply (Step n k); [|reflexivity|rewrite Ev0; now rewrite <- E]. rewrite <- Ev in E1.
       destruct (lexed_step _ _ _ _ _ HL E1) as (Hn & _); [destruct a; discriminate|]. lia. }
  all: assert (LB : forall w v, a ++ nl :: w = l ++ nl :: v -> exists n, lex_one (a ++ nl :: w) = (n, TK_LINE_BREAK) /\ 1 <= n <= length (a ++ nl :: w)).
  1, 3: intros w vw Ew; apply (line_break_here _ l vw Ew); auto.
  all: destruct (LB b v Ev) as (n & E & Hn), (LB [] v0 Ev0) as (n0 & E0 & Hn0).
  all: destruct (lb_table _ _ E) as ((ls & Nls & Fb) & Mx & pn & In1 & Pn), (lb_table _ _ E0) as (_ & Mx0 & pn0 & In0 & Pn0).
  all: rewrite app_length in Hn, Hn0; cbn [length] in Hn, Hn0.
  all: assert (In2 : In (PRe re_lb, TK_LINE_BREAK) lex_table) by exact in_lb.
  all: destruct (le_lt_dec n (length a)) as [Ln|Ln].
  1, 3: assert (L1 : n <= n0) by (apply (Mx0 pn n In1); [rewrite app_length; cbn [length]; lia|]; rewrite firstn_inside in Pn |- * by lia; exact Pn);
    assert (L2 : n0 <= n) by (apply (Mx pn0 n0 In0); [rewrite app_length; cbn [length]; lia|];
      replace (firstn n0 (a ++ nl :: b)) with (firstn n0 (a ++ [nl])); [exact Pn0|];
      change (nl :: b) with ([nl] ++ b); rewrite app_assoc, (firstn_app n0 (a ++ [nl]) b); replace (n0 - length (a ++ [nl])) with 0 by (rewrite app_length; cbn [length]; lia); now rewrite app_nil_r);
    replace n0 with n in E0 by lia; apply (Step n TK_LINE_BREAK); [lia|exact E|exact E0].
  all: assert (Fn : firstn n (a ++ nl :: b) = a ++ nl :: firstn (n - S (length a)) b) by
    (rewrite firstn_app, firstn_all2 by lia; f_equal; replace (n - length a) with (S (n - S (length a))) by lia; reflexivity).
  all: assert (Sn : skipn n (a ++ nl :: b) = skipn (n - S (length a)) b) by
    (rewrite skipn_app, skipn_all2 by lia; cbn [app]; replace (n - length a) with (S (n - S (length a))) by lia; reflexivity).
  all: rewrite Fn in Fb; symmetry in Fb; destruct (breaks_front _ _ _ Fb) as (lf & Nlf & Ef), (breaks_tail _ _ _ Fb) as (lt & Et).
  all: assert (L3 : length a + 1 <= n0) by (apply (Mx0 (PRe re_lb) (length a + 1) In2); [rewrite app_length; cbn [length]; lia|];
    rewrite firstn_all2 by (rewrite app_length; cbn [length]; lia); rewrite Ef; exact (breaks_match lf Nlf)).
  all: replace n0 with (length (a ++ [nl])) in E0 by (rewrite app_length; cbn [length]; lia).
  all: destruct (lexed_step _ _ _ _ _ HL E) as (_ & rest & -> & HR); [destruct a; discriminate|].
  all: exists [], (mkTok TK_LINE_BREAK (a ++ [nl]) off (off + blen (a ++ [nl]))), (mkTok TK_LINE_BREAK (firstn n (a ++ nl :: b)) off (off + blen (firstn n (a ++ nl :: b)))), rest.
  all: split; [cbn [app]; econstructor; [destruct a; discriminate|exact E0|rewrite app_length; cbn [length]; lia|now rewrite firstn_all|rewrite skipn_all; constructor]|].
  all: split; [reflexivity|]; split; [reflexivity|]; split; [reflexivity|]; split; [reflexivity|]; intros Nb.
  all: assert (Z : firstn (n - S (length a)) b = []) by
    (destruct (firstn (n - S (length a)) b) as [|x y] eqn:Ex; [reflexivity|exfalso; apply Nb; rewrite <- (firstn_skipn (n - S (length a)) b), Ex; apply begin_app; rewrite Et; apply breaks_begin; rewrite <- Et; discriminate]).
  all: assert (Zs : skipn (n - S (length a)) b = b) by (rewrite <- (firstn_skipn (n - S (length a)) b) at 2; rewrite Z; reflexivity).
  all: rewrite Fn, Z in HR |- *; rewrite Sn, Zs in HR; split; [reflexivity|exact HR].
Qed.

(** * The theorems *)

(** The tokens of a text are those of its first lines followed by those of the rest, unless the rest
    begins with an empty line (whose end belongs to the same token as the end of the line before). *)
Theorem C85_lines_are_read_one_by_one : forall a b, ~ begins_with_line_break b ->
  lex (a ++ nl :: b) = lex (a ++ [nl]) ++ map (moved (blen (a ++ [nl]))) (lex b).
Proof.
  intros a b Nb. destruct (line_tokens (length a) a b 0 _ (Nat.le_refl _) (lex_lexed (a ++ nl :: b))) as (pre & t & t' & post & H1 & -> & _ & _ & _ & H6).
  destruct (H6 Nb) as [-> H7]. rewrite (lexed_same _ _ _ _ (lex_lexed (a ++ [nl])) H1), <- app_assoc. cbn [app]. do 2 f_equal.
  cbn [Nat.add] in H7. eapply lexed_same; [exact H7|]. pose proof (lexed_moved (blen (a ++ [nl])) 0 b _ (lex_lexed b)) as X. now rewrite Nat.add_0_r in X.
Qed.

(** A line with something on it. *)
Definition filled_line (x : text) : Prop := ~ In nl x /\ x <> [] /\ x <> [13%N].
Lemma filled_begin x b : filled_line x -> ~ begins_with_line_break (x ++ nl :: b).
Proof.
  intros (H1 & H2 & H3) (r & [E|E]); destruct x as [|c [|d x]]; cbn [app] in E; try contradiction.
  - injection E as -> _. apply H1. now left.
  - injection E as -> _. apply H1. now left.
  - injection E as -> _. contradiction.
  - injection E as _ -> _. apply H1. right. now left.
Qed.
Lemma moved_text d l : concat (map tk_text (map (moved d) l)) = concat (map tk_text l).
Proof. rewrite map_map. reflexivity. Qed.
Lemma moved_moved d e l : map (moved d) (map (moved e) l) = map (moved (d + e)) l.
Proof. rewrite map_map. apply map_ext. intros t. unfold moved. cbn. now rewrite !Nat.add_assoc. Qed.

(** Whatever is written on a line (not nothing), the tokens before it are [A] and those behind it are [B],
    moved by what is on the line. *)
Theorem C85_a_line_has_its_own_tokens : forall a b, ~ begins_with_line_break b ->
  exists A B, concat (map tk_text A) = a ++ [nl] /\ concat (map tk_text B) = b /\
    forall x, filled_line x -> exists X, concat (map tk_text X) = x ++ [nl] /\
      lex (a ++ nl :: x ++ nl :: b) = A ++ X ++ map (moved (blen x)) B.
Proof.
  intros a b Nb. exists (lex (a ++ [nl])), (map (moved (blen (a ++ [nl]) + 1)) (lex b)).
  split; [exact (lexed_text _ _ _ (lex_lexed _))|]. split; [rewrite moved_text; exact (lexed_text _ _ _ (lex_lexed _))|].
  intros x Hx. exists (map (moved (blen (a ++ [nl]))) (lex (x ++ [nl]))). split; [rewrite moved_text; exact (lexed_text _ _ _ (lex_lexed _))|].
  rewrite (C85_lines_are_read_one_by_one a _ (filled_begin x b Hx)), (C85_lines_are_read_one_by_one x b Nb), map_app, !moved_moved.
  do 3 f_equal. f_equal. rewrite (blen_app x). change (blen [nl]) with 1. lia.
Qed.

(** The syntax errors before the last significant token [c] of the first lines [a] are the same in
    every file that begins with these lines. *)
Lemma first_lines a pre c ws b : lex (a ++ [nl]) = pre ++ c :: ws -> significant c -> exists post, lex (a ++ nl :: b) = pre ++ c :: post.
Proof.
  intros L [_ S]. destruct (line_tokens (length a) a b 0 _ (Nat.le_refl _) (lex_lexed (a ++ nl :: b))) as (pre0 & t & t' & post & H1 & -> & K & _).
  rewrite (lexed_same _ _ _ _ (lex_lexed (a ++ [nl])) H1) in L. destruct ws as [|w ws _] using rev_ind.
  - apply app_inj_tail in L as [_ ->]. contradiction.
  - rewrite app_comm_cons, app_assoc in L. apply app_inj_tail in L as [-> _]. exists (ws ++ t' :: post). rewrite <- app_assoc. reflexivity.
Qed.
Theorem C85_messages_about_the_first_lines : forall dbg a pre c ws b1 b2 t1 t2 errs1 errs2,
  lex (a ++ [nl]) = pre ++ c :: ws -> significant c ->
  parse_src dbg (a ++ nl :: b1) = OK (t1, errs1) -> parse_src dbg (a ++ nl :: b2) = OK (t2, errs2) ->
  errors_before (tk_start c) errs1 = errors_before (tk_start c) errs2.
Proof.
  intros dbg a pre c ws b1 b2 t1 t2 errs1 errs2 L S P1 P2.
  destruct (first_lines a pre c ws b1 L S) as (post1 & L1), (first_lines a pre c ws b2 L S) as (post2 & L2).
  exact (C83_errors_of_a_beginning dbg _ _ pre c post1 post2 t1 t2 errs1 errs2 L1 L2 S P1 P2).
Qed.

(** * Cases *)
Definition shown (s : text) : list (kind * nat * nat) := map (fun t => (tk_kind t, tk_start t, tk_end t)) (lex s).
(** [{{ a is not] / [b }}]: the look-ahead behind [is not] sees the end of the line. *)
Example C85_case_two_lines :
  ~ begins_with_line_break (txt "b }}") /\
  shown (txt "{{ a is not" ++ nl :: txt "b }}") =
    [(TK_OPEN_CURLY_CURLY, 0, 2); (TK_WHITESPACE, 2, 3); (TK_WORD, 3, 4); (TK_WHITESPACE, 4, 5); (TK_IS_NOT, 5, 11); (TK_LINE_BREAK, 11, 12);
     (TK_WORD, 12, 13); (TK_WHITESPACE, 13, 14); (TK_CLOSE_CURLY_CURLY, 14, 16)] /\
  shown (txt "b }}") = [(TK_WORD, 0, 1); (TK_WHITESPACE, 1, 2); (TK_CLOSE_CURLY_CURLY, 2, 4)].
Proof. split; [intros (r & [E|E]); discriminate E|]. vm_compute. auto. Qed.
(** The restriction is needed: an empty line belongs to the token of the line break before it. *)
Example C85_case_empty_line :
  shown (txt "a" ++ nl :: nl :: txt "b") = [(TK_WORD, 0, 1); (TK_LINE_BREAK, 1, 3); (TK_WORD, 3, 4)] /\
  shown (txt "a" ++ [nl]) = [(TK_WORD, 0, 1); (TK_LINE_BREAK, 1, 2)].
Proof. vm_compute. auto. Qed.
Example C85_case_filled : filled_line (txt "<p class='a'>").
Proof. split; [|split; discriminate]. cbv. intuition discriminate. Qed.
(** First lines [{{ }}] / [<p>]: the last significant token is the [>] at 8, the error before it is there for
    every rest; the file goes on with a syntax error, or is fine otherwise. *)
Example C85_case_messages :
  (exists pre c ws, lex (txt "{{ }}" ++ nl :: txt "<p>" ++ [nl]) = pre ++ c :: ws /\ tk_kind c = TK_GREATER_THAN /\ tk_start c = 8) /\
  case_errs (txt "{{ }}" ++ nl :: txt "<p>" ++ nl :: txt "</p>") = [(3, txt "twig expression")] /\
  map fst (case_errs (txt "{{ }}" ++ nl :: txt "<p>" ++ nl :: txt "{% if %}")) = [3; 16; 16; 16; 16; 16].
Proof.
  split; [|split; [vm_compute; reflexivity|]].
  - exists (firstn 6 (lex (txt "{{ }}" ++ nl :: txt "<p>" ++ [nl]))), (mkTok TK_GREATER_THAN (txt ">") 8 9), (skipn 7 (lex (txt "{{ }}" ++ nl :: txt "<p>" ++ [nl]))). vm_compute. auto.
  - vm_compute. reflexivity.
Qed.

Print Assumptions C85_lines_are_read_one_by_one.
Print Assumptions C85_a_line_has_its_own_tokens.
Print Assumptions C85_messages_about_the_first_lines.
