(** Property theorems about lexing: C01, C09, C10 (and C39). *)
From Coq Require Import NArith String Bool Lia Arith List.
Import ListNotations.
From Verif Require Import Text Kind Regex Lexer LexerProofs.
Local Open Scope list_scope.
Local Notation length := List.length (only parsing).

(** * C01: lexing is lossless *)

(** [adjacent a ts b]: the ranges of [ts] are non-empty, have the byte length of their
    texts, and tile [a..b] without gap or overlap. *)
Inductive adjacent : nat -> list token -> nat -> Prop :=
| adj_nil a : adjacent a [] a
| adj_cons a t ts b :
    tk_start t = a -> tk_end t = a + blen (tk_text t) -> a < tk_end t ->
    adjacent (tk_end t) ts b -> adjacent a (t :: ts) b.

Lemma chain_adjacent : forall a ts b, chain a ts b -> adjacent a ts b.
Proof.
  induction 1 as [a|a t ts b H1 H2 H3 H4 IH]; constructor; auto.
  destruct (tk_text t) as [|c x]; [congruence|]. cbn [blen] in H2.
  pose proof (utf8_len_pos c). lia.
Qed.

Theorem C01_lex_lossless : forall src,
  List.concat (map tk_text (lex src)) = src /\
  Forall (fun t => tk_text t <> []) (lex src) /\
  adjacent 0 (lex src) (blen src).
Proof.
  intros src. pose proof (lex_lexed src) as H. split; [|split].
  - exact (lexed_text _ _ _ H).
  - apply lexed_chain in H. clear -H. induction H; constructor; auto.
  - apply lexed_chain in H. apply chain_adjacent. exact H.
Qed.

(** Non-trivial case: multi-byte chars, an unknown char, a two-word operator. *)
Example C01_case :
  map (fun t => (tk_kind t, tk_start t, tk_end t)) (lex (txt "{{ a not in " ++ [228; 8364]%N))
  = [(TK_OPEN_CURLY_CURLY, 0, 2); (TK_WHITESPACE, 2, 3); (TK_WORD, 3, 4); (TK_WHITESPACE, 4, 5);
     (TK_NOT_IN, 5, 11); (TK_WHITESPACE, 11, 12); (TK_UNKNOWN, 12, 14); (TK_UNKNOWN, 14, 17)].
Proof. vm_compute. reflexivity. Qed.

(** * C09: longest match, literals before regular expressions *)

(** What a table entry describes. *)
Definition describes (p : pattern) (w : text) : Prop :=
  match p with
  | PLit l => w = txt l
  | PLitCI l => map to_lower_ascii w = map to_lower_ascii (txt l)
  | PRe r => rmatch r w
  end.
Definition prefix (w s : text) : Prop := exists r, s = w ++ r.

(** [w] is the longest prefix of [s] any entry describes, [(p, k)] the first entry that
    describes it. *)
Definition munch (s : text) (p : pattern) (k : kind) (w : text) : Prop :=
  prefix w s /\ describes p w /\
  (forall p' k' w', In (p', k') lex_table -> prefix w' s -> describes p' w' ->
     length w' <= length w) /\
  exists t1 t2, lex_table = t1 ++ (p, k) :: t2 /\
    forall p' k', In (p', k') t1 -> ~ describes p' w.

Lemma prefix_firstn : forall w s, prefix w s -> length w <= length s /\ firstn (length w) s = w.
Proof.
  intros w s [r ->]. split; [rewrite app_length; lia | apply firstn_app_exact].
Qed.

Lemma winner_munch : forall s p k n, n <= length s -> winner s p k n -> munch s p k (firstn n s).
Proof.
  intros s p k n Hn (t1 & t2 & Et & (_ & Hp & _) & Hall & Hearly).
  assert (Hl : length (firstn n s) = n) by (rewrite firstn_length; lia).
  split; [exists (skipn n s); symmetry; apply firstn_skipn|]. split; [exact Hp|]. split.
  - intros p' k' w' Hin Hpre Hd. rewrite Hl. apply prefix_firstn in Hpre as [H1 H2].
    apply (Hall p' k' _ Hin H1). now rewrite H2.
  - exists t1, t2. split; [exact Et|]. intros p' k' Hin Hd.
    specialize (Hearly _ _ _ Hin Hn Hd). lia.
Qed.

Theorem C09_longest_match : forall src pre t post,
  lex src = pre ++ t :: post ->
  let s := List.concat (map tk_text (t :: post)) in
  (tk_kind t = TK_UNKNOWN /\ length (tk_text t) = 1 /\
     forall p k w, In (p, k) lex_table -> prefix w s -> ~ describes p w) \/
  (exists p k w, munch s p k w /\ w <> [] /\
     ((k <> TK_NOT /\ k <> TK_IS /\ tk_kind t = k /\ tk_text t = w) \/
      (k = TK_NOT /\ (tk_kind t = TK_NOT /\ tk_text t = w
                      \/ tk_kind t = TK_NOT_IN /\ tk_text t = w ++ txt " in")) \/
      (k = TK_IS /\ (tk_kind t = TK_IS /\ tk_text t = w
                     \/ tk_kind t = TK_IS_NOT /\ tk_text t = w ++ txt " not")))).
Proof.
  intros src pre t post H s. pose proof (lex_lexed src) as HL. rewrite H in HL.
  apply lexed_split in HL as (s' & Es & Hne & Ho & Ht). change (s' = s) in Es. subst s'.
  rewrite lex_one_eq in Ho.
  destruct (best_match_table s) as [[E Hno]|(p & k & n & E & Hw & Hn)]; rewrite E in Ho.
  - left. injection Ho as Hl Hk. repeat split; auto.
    intros p k w Hin Hpre Hd. apply prefix_firstn in Hpre as [H1 H2].
    apply (Hno p k Hin _ H1). now rewrite H2.
  - right. exists p, k, (firstn n s). split; [apply winner_munch; [lia|assumption]|].
    split. { destruct s; [congruence|]. destruct n; [lia|]. discriminate. }
    assert (Hplain : (n, k) = (length (tk_text t), tk_kind t) -> tk_kind t = k /\ tk_text t = firstn n s).
    { intros [= -> ->]. auto. }
    assert (Hcb : forall suf a b, (let (x, y) := cb_suffix suf a b (skipn n s) in (n + x, y))
                    = (length (tk_text t), tk_kind t) ->
                  (tk_kind t = a /\ tk_text t = firstn n s) \/
                  (tk_kind t = b /\ tk_text t = firstn n s ++ txt suf)).
    { intros suf a b Hc. unfold cb_suffix in Hc.
      destruct (starts_with (txt suf) (skipn n s)) eqn:Es.
      - destruct (boundary_after _).
        + right. injection Hc as Hl Hk. split; [auto|]. rewrite Ht, <- Hl.
          apply starts_with_iff in Es as [r Es].
          rewrite <- (firstn_skipn n s) at 1. rewrite Es, firstn_app.
          rewrite firstn_length_le by lia. rewrite firstn_all2 by (rewrite firstn_length; lia).
          f_equal. replace (n + String.length suf - n) with (length (txt suf))
            by (rewrite length_txt; lia). apply firstn_app_exact.
        + left. injection Hc as Hl Hk. rewrite Nat.add_0_r in Hl. rewrite Hl. auto.
      - left. injection Hc as Hl Hk. rewrite Nat.add_0_r in Hl. rewrite Hl. auto. }
    destruct (kind_eqb k TK_NOT) eqn:E1.
    { apply kind_eqb_eq in E1 as ->. right; left. split; [reflexivity|]. exact (Hcb _ _ _ Ho). }
    destruct (kind_eqb k TK_IS) eqn:E2.
    { apply kind_eqb_eq in E2 as ->. right; right. split; [reflexivity|]. exact (Hcb _ _ _ Ho). }
    apply kind_eqb_neq in E1, E2. left. destruct (Hplain Ho) as [? ?]. auto.
Qed.

(** A word that merely starts with a keyword is one TK_WORD; a keyword is not. *)
Example C09_case :
  map (fun t => (tk_kind t, tk_text t)) (lex (txt "format for <!-- &amp; endfor"))
  = [(TK_WORD, txt "format"); (TK_WHITESPACE, txt " "); (TK_FOR, txt "for"); (TK_WHITESPACE, txt " ");
     (TK_LESS_THAN_EXCLAMATION_MARK_MINUS_MINUS, txt "<!--"); (TK_WHITESPACE, txt " ");
     (TK_HTML_ESCAPE_CHARACTER, txt "&amp;"); (TK_WHITESPACE, txt " "); (TK_ENDFOR, txt "endfor")].
Proof. vm_compute. reflexivity. Qed.

(** ** Identifiers are never split *)

(** The five keywords of several words (untyped.rs:266, 300, 302, 314, 322). *)
Definition several_words : list text :=
  map txt ["ignore missing"; "starts with"; "ends with"; "same as"; "divisible by"]%string.
Definition ends_word (rest : text) : Prop :=
  match rest with [] => True | c :: _ => in_class cl_word c = false end.
Definition literal (p : pattern) : Prop :=
  match p with PRe _ => False | _ => True end.

(** If the text at the start of a token is an identifier [w] that cannot be continued, then
    the token is [w] (or [w] followed by the second word of "not in" / "is not"); its kind is
    the keyword's iff the whole [w] is a keyword. Excluded: one of the five two-word keywords
    or a component name starts there. *)
Theorem C09_identifier : forall src pre t post w rest,
  lex src = pre ++ t :: post ->
  List.concat (map tk_text (t :: post)) = w ++ rest ->
  rmatch re_word w -> ends_word rest ->
  (forall l, In l several_words -> ~ prefix l (w ++ rest)) ->
  ~ prefix (txt "twig:") (w ++ rest) ->
  (exists p k, literal p /\ In (p, k) lex_table /\ describes p w /\
     (tk_kind t = k /\ tk_text t = w \/
      k = TK_NOT /\ tk_kind t = TK_NOT_IN /\ tk_text t = w ++ txt " in" \/
      k = TK_IS /\ tk_kind t = TK_IS_NOT /\ tk_text t = w ++ txt " not")) \/
  (tk_kind t = TK_WORD /\ tk_text t = w /\
     forall p k, literal p -> In (p, k) lex_table -> ~ describes p w).
Proof.
  intros src pre t post w rest H Hs Hw Hrest Hmulti Htwig.
  destruct (C09_longest_match _ _ _ _ H) as [(_ & _ & Hno)|(p & k & w' & Hm & Hne & Hcase)];
    rewrite Hs in *.
  - exfalso. apply (Hno _ _ w table_word); [exists rest; reflexivity | exact Hw].
  - destruct Hm as (Hpre & Hd & Hall & t1 & t2 & Et & Hearly).
    assert (Hwin : winner (w ++ rest) p k (length w')).
    { apply prefix_firstn in Hpre as [H1 H2].
      assert (Hin : In (p, k) lex_table) by (rewrite Et; apply in_elt).
      assert (Hle : forall p' k' m, In (p', k') lex_table -> m <= length (w ++ rest) ->
                describes p' (firstn m (w ++ rest)) -> m <= length w').
      { intros p' k' m Hi Hlm Hdm. specialize (Hall p' k' (firstn m (w ++ rest)) Hi).
        rewrite <- (firstn_length_le (w ++ rest) Hlm). apply Hall; [|assumption].
        exists (skipn m (w ++ rest)). symmetry; apply firstn_skipn. }
      exists t1, t2. split; [exact Et|]. split; [|split].
      - split; [exact H1|]. split; [rewrite H2; exact Hd|]. intros m Hlm Hdm.
        exact (Hle p k m Hin Hlm Hdm).
      - exact Hle.
      - intros p' k' m Hi Hlm Hdm.
        assert (Hi' : In (p', k') lex_table) by (rewrite Et; apply in_or_app; auto).
        specialize (Hle _ _ _ Hi' Hlm Hdm).
        destruct (Nat.eq_dec m (length w')) as [->|]; [|lia].
        exfalso. rewrite H2 in Hdm. eapply Hearly; eauto. }
    destruct (ident_winner w rest p k (length w') Hw Hrest Hmulti Htwig Hwin) as [Hlen Hk].
    assert (w' = w) as ->.
    { apply prefix_firstn in Hpre as [_ H2]. rewrite <- H2, Hlen. apply firstn_app_exact. }
    destruct Hk as [(Hre & Hin & Hdw)|[-> Hnone]].
    + left. exists p, k. split; [destruct p; cbn; auto; discriminate|].
      split; [exact Hin|]. split; [exact Hdw|].
      destruct Hcase as [(_ & _ & Ha & Hb)|[[-> [[Ha Hb]|[Ha Hb]]]|[-> [[Ha Hb]|[Ha Hb]]]]]; auto.
    + right. destruct Hcase as [(_ & _ & Ha & Hb)|[[E _]|[E _]]]; try discriminate.
      split; [exact Ha|]. split; [exact Hb|].
      intros p' k' Hl Hin Hd'. apply (Hnone p' k' Hin); [|exact Hd'].
      destruct p'; [reflexivity|reflexivity|destruct Hl].
Qed.

(** * C10: 'not in' and 'is not' *)

Definition separated (rest : text) : Prop :=
  rest = [] \/ exists c r, rest = c :: r /\ (c = 32 \/ c = 9 \/ c = 10)%N.

Lemma boundary_separated : forall rest, boundary_after rest = true <-> separated rest.
Proof.
  intros [|c r]; cbn [boundary_after]; unfold separated.
  - split; auto.
  - rewrite !orb_true_iff, !N.eqb_eq. split.
    + intros H. right. exists c, r. split; [reflexivity|tauto].
    + intros [H|(c' & r' & [= <- <-] & H)]; [discriminate|tauto].
Qed.

(** The word [word] at the start of a token, joined with [suf] exactly if separated. *)
Definition joins (word suf : string) (plain joined : kind) : Prop :=
  forall src pre t post,
  lex src = pre ++ t :: post ->
  (forall rest, List.concat (map tk_text (t :: post)) = txt word ++ rest -> ends_word rest ->
     ((exists r, rest = txt suf ++ r /\ separated r) ->
        tk_kind t = joined /\ tk_text t = txt word ++ txt suf) /\
     (~ (exists r, rest = txt suf ++ r /\ separated r) ->
        tk_kind t = plain /\ tk_text t = txt word)) /\
  (tk_kind t = joined ->
     tk_text t = txt word ++ txt suf /\ separated (List.concat (map tk_text post))) /\
  (tk_kind t = plain -> tk_text t = txt word).

Lemma skipn_txt : forall l r, skipn (String.length l) (txt l ++ r) = r.
Proof. induction l as [|a l IH]; intros r; cbn; auto. Qed.

(** The words "not" and "is" are identifiers and no two-word keyword starts with them. *)
Lemma joins_gen : forall word suf plain joined,
  (forall s, lex_one s = match best_match lex_table s None with
     | Some (n, k) => if kind_eqb k plain then
           let (b, k') := cb_suffix suf plain joined (skipn n s) in (n + b, k')
         else (fst (lex_one s), snd (lex_one s))
     | None => (1, TK_UNKNOWN) end) ->
  (forall p k, In (p, k) lex_table -> k = plain -> p = PLit word) ->
  (forall s n k, best_match lex_table s None = Some (n, k) -> k <> plain ->
      snd (lex_one s) <> joined /\ snd (lex_one s) <> plain) ->
  plain <> TK_UNKNOWN -> joined <> TK_UNKNOWN -> joined <> plain ->
  In (PLit word, plain) lex_table ->
  rmatch re_word (txt word) ->
  (forall p k, In (p, k) lex_table -> literal p -> describes p (txt word) -> k = plain) ->
  (forall rest l, In l several_words -> ~ prefix l (txt word ++ rest)) ->
  (forall rest, ~ prefix (txt "twig:") (txt word ++ rest)) ->
  joins word suf plain joined.
Proof.
  intros word suf plain joined Hone Hlit Hother Hpu Hju Hjp Hin Hw Huniq Hmulti Htwig src pre t post H.
  pose proof (lex_lexed src) as HL. rewrite H in HL.
  apply lexed_split in HL as (s & Es & Hne & Ho & Ht).
  assert (Hcat : List.concat (map tk_text (t :: post)) = tk_text t ++ List.concat (map tk_text post))
    by reflexivity.
  assert (Hjoin : forall n rest, s = txt word ++ rest -> n = String.length word ->
     (let (b, k') := cb_suffix suf plain joined (skipn n s) in (n + b, k'))
        = (length (tk_text t), tk_kind t) ->
     ((exists r, rest = txt suf ++ r /\ separated r) /\
        tk_kind t = joined /\ tk_text t = txt word ++ txt suf) \/
     (~ (exists r, rest = txt suf ++ r /\ separated r) /\
        tk_kind t = plain /\ tk_text t = txt word)).
  { intros n rest Er -> Hc. rewrite Er, skipn_txt in Hc. unfold cb_suffix in Hc.
    destruct (starts_with (txt suf) rest) eqn:E.
    - apply starts_with_iff in E as [r ->]. rewrite skipn_txt in Hc.
      destruct (boundary_after r) eqn:Eb.
      + left. apply boundary_separated in Eb. injection Hc as Hl Hk. split; [eauto|].
        split; [auto|]. rewrite Ht, <- Hl, Er, app_assoc.
        rewrite <- !length_txt, <- app_length. apply firstn_app_exact.
      + right. injection Hc as Hl Hk. split.
        * intros (r' & E & Hsep). apply app_inv_head in E as ->.
          apply boundary_separated in Hsep. congruence.
        * split; [auto|]. rewrite Ht, <- Hl, Er, Nat.add_0_r, <- length_txt.
          apply firstn_app_exact.
    - right. injection Hc as Hl Hk. split.
      + intros (r' & -> & _). assert (starts_with (txt suf) (txt suf ++ r') = true); [|congruence].
        apply starts_with_iff; eauto.
      + split; [auto|]. rewrite Ht, <- Hl, Er, Nat.add_0_r, <- length_txt.
        apply firstn_app_exact. }
  destruct (best_match_table s) as [[E Hno]|(p & k & n & E & Hwin & Hn)].
  - rewrite Hone, E in Ho. injection Ho as Hl Hk. split; [|split; congruence].
    intros rest Er _. exfalso. rewrite <- Es in Er.
    apply (Hno _ _ Hin (length (txt word))).
    + rewrite Er, app_length. lia.
    + rewrite Er, firstn_app_exact. reflexivity.
  - assert (Hpk : In (p, k) lex_table)
      by (destruct Hwin as (t1 & t2 & Et & _); rewrite Et; apply in_elt).
    destruct (kind_eqb k plain) eqn:Ek.
    + assert (k = plain) as -> by (apply kind_eqb_eq; exact Ek).
      pose proof (Hlit _ _ Hpk eq_refl) as ->.
      rewrite Hone, E, Ek in Ho.
      destruct Hwin as (t1 & t2 & Et & (Hle & Hd & _) & _). cbn [pat_matches] in Hd.
      assert (En : n = String.length word).
      { rewrite <- length_txt, <- Hd, firstn_length. lia. }
      assert (Esplit : s = txt word ++ skipn n s).
      { rewrite <- Hd. symmetry. apply firstn_skipn. }
      destruct (Hjoin n (skipn n s) Esplit En Ho) as [(Hex & Hk & Htx)|(Hnex & Hk & Htx)].
      * split; [|split].
        -- intros rest Er _. rewrite <- Es, Esplit in Er. apply app_inv_head in Er as <-.
           split; [auto|]. intros; contradiction.
        -- intros _. split; [assumption|].
           destruct Hex as (r & Er & Hsep). rewrite Esplit, Er, Hcat, Htx, <- app_assoc in Es.
           apply app_inv_head, app_inv_head in Es as <-. assumption.
        -- congruence.
      * split; [|split].
        -- intros rest Er _. rewrite <- Es, Esplit in Er. apply app_inv_head in Er as <-.
           split; [intros; contradiction | auto].
        -- congruence.
        -- auto.
    + assert (k <> plain) by (intros ->; rewrite kind_eqb_refl in Ek; discriminate).
      destruct (Hother _ _ _ E H0) as [H1 H2]. rewrite Ho in H1, H2. cbn [snd] in H1, H2.
      split; [|split; intros; contradiction].
      intros rest Er Hrest. exfalso. rewrite <- Es in Er. rewrite Er in Hwin.
      destruct (ident_winner (txt word) rest p k n Hw Hrest (Hmulti rest) (Htwig rest) Hwin)
        as [_ [(Hre & _ & Hd)|[_ Hnone]]].
      * apply H0. apply (Huniq p k Hpk); [destruct p; cbn; auto; discriminate | exact Hd].
      * apply (Hnone _ _ Hin eq_refl). reflexivity.
Qed.

Lemma lex_one_not : forall s, lex_one s = match best_match lex_table s None with
     | Some (n, k) => if kind_eqb k TK_NOT then
           let (b, k') := cb_suffix " in" TK_NOT TK_NOT_IN (skipn n s) in (n + b, k')
         else (fst (lex_one s), snd (lex_one s))
     | None => (1, TK_UNKNOWN) end.
Proof.
  intros s. rewrite (lex_one_eq s). destruct (best_match lex_table s None) as [[n k]|]; [|reflexivity].
  destruct (kind_eqb k TK_NOT); [reflexivity|]. apply surjective_pairing.
Qed.

Lemma lex_one_is : forall s, lex_one s = match best_match lex_table s None with
     | Some (n, k) => if kind_eqb k TK_IS then
           let (b, k') := cb_suffix " not" TK_IS TK_IS_NOT (skipn n s) in (n + b, k')
         else (fst (lex_one s), snd (lex_one s))
     | None => (1, TK_UNKNOWN) end.
Proof.
  intros s. rewrite (lex_one_eq s). destruct (best_match lex_table s None) as [[n k]|]; [|reflexivity].
  destruct (kind_eqb k TK_NOT) eqn:E1; [|destruct (kind_eqb k TK_IS); [reflexivity|apply surjective_pairing]].
  apply kind_eqb_eq in E1 as ->. change (kind_eqb TK_NOT TK_IS) with false. cbn iota.
  apply surjective_pairing.
Qed.

(** The kinds of the table, computed once. *)
Lemma table_entry : forall p k, In (p, k) lex_table ->
  k <> TK_NOT_IN /\ k <> TK_IS_NOT /\ (k = TK_NOT -> p = PLit "not") /\ (k = TK_IS -> p = PLit "is").
Proof.
  assert (H : forallb (fun e => negb (kind_eqb (snd e) TK_NOT_IN) && negb (kind_eqb (snd e) TK_IS_NOT)
       && (negb (kind_eqb (snd e) TK_NOT) || match fst e with PLit l => String.eqb l "not" | _ => false end)
       && (negb (kind_eqb (snd e) TK_IS) || match fst e with PLit l => String.eqb l "is" | _ => false end))
     lex_table = true) by (vm_compute; reflexivity).
  intros p k Hin. rewrite forallb_forall in H. specialize (H _ Hin). cbn [fst snd] in H.
  apply andb_true_iff in H as [H H4]. apply andb_true_iff in H as [H H3].
  apply andb_true_iff in H as [H1 H2].
  apply negb_true_iff in H1, H2. apply kind_eqb_neq in H1, H2.
  split; [assumption|]. split; [assumption|]. split; intros ->.
  - rewrite kind_eqb_refl in H3. cbn [negb orb] in H3. destruct p; try discriminate.
    apply String.eqb_eq in H3. now subst.
  - rewrite kind_eqb_refl in H4. cbn [negb orb] in H4. destruct p; try discriminate.
    apply String.eqb_eq in H4. now subst.
Qed.

Lemma table_lit_kind : forall w kw,
  forallb (fun e => negb (match fst e with
              | PLit l => text_eqb w (txt l)
              | PLitCI l => text_eqb (map to_lower_ascii w) (map to_lower_ascii (txt l))
              | PRe _ => false end) || kind_eqb (snd e) kw) lex_table = true ->
  forall p k, In (p, k) lex_table -> literal p -> describes p w -> k = kw.
Proof.
  intros w kw H p k Hin Hl Hd. rewrite forallb_forall in H. specialize (H _ Hin).
  cbn [fst snd] in H. destruct p as [l|l|r]; cbn [describes literal] in *; [| |tauto].
  - replace (text_eqb w (txt l)) with true in H by (symmetry; now apply text_eqb_eq).
    now apply kind_eqb_eq.
  - replace (text_eqb _ _) with true in H by (symmetry; now apply text_eqb_eq).
    now apply kind_eqb_eq.
Qed.

Lemma in_table : forall i e, nth_error lex_table i = Some e -> In e lex_table.
Proof. intros i e. apply nth_error_In. Qed.

Lemma word_of_deriv : forall w, nullable (fold_left (fun r c => deriv c r) w re_word) = true ->
  rmatch re_word w.
Proof.
  intros w. generalize re_word. induction w as [|c w IH]; intros r H; cbn [fold_left] in H.
  - now apply nullable_spec.
  - apply deriv_spec. now apply IH.
Qed.

Lemma snd_lex_one : forall s n k, best_match lex_table s None = Some (n, k) ->
  snd (lex_one s) = k \/ (k = TK_NOT /\ snd (lex_one s) = TK_NOT_IN)
  \/ (k = TK_IS /\ snd (lex_one s) = TK_IS_NOT).
Proof.
  intros s n k E. rewrite lex_one_eq, E.
  destruct (kind_eqb k TK_NOT) eqn:E1.
  { apply kind_eqb_eq in E1 as ->. unfold cb_suffix. destruct (starts_with _ _);
      [destruct (boundary_after _)|]; cbn [snd]; auto. }
  destruct (kind_eqb k TK_IS) eqn:E2.
  { apply kind_eqb_eq in E2 as ->. unfold cb_suffix. destruct (starts_with _ _);
      [destruct (boundary_after _)|]; cbn [snd]; auto. }
  auto.
Qed.

Lemma best_match_in : forall s n k, best_match lex_table s None = Some (n, k) ->
  exists p, In (p, k) lex_table.
Proof.
  intros s n k E. destruct (best_match_table s) as [[E' _]|(p & k' & n' & E' & (t1 & t2 & Et & _) & _)];
    rewrite E in E'; [discriminate|]. injection E' as <- <-. exists p. rewrite Et. apply in_elt.
Qed.

Ltac no_prefix_tac :=
  let r := fresh in let H := fresh in
  intros [r H]; cbn in H; discriminate.

Theorem C10_not_in : joins "not" " in" TK_NOT TK_NOT_IN.
Proof.
  apply joins_gen.
  - exact lex_one_not.
  - intros p k Hin E. now apply (table_entry p k Hin).
  - intros s n k E Hk. destruct (best_match_in _ _ _ E) as [p Hin].
    destruct (table_entry _ _ Hin) as (H1 & H2 & _).
    destruct (snd_lex_one _ _ _ E) as [->|[[-> ->]|[-> ->]]]; split; congruence.
  - discriminate.
  - discriminate.
  - discriminate.
  - apply (in_table 109). vm_compute. reflexivity.
  - apply word_of_deriv. vm_compute. reflexivity.
  - apply table_lit_kind. vm_compute. reflexivity.
  - intros rest l Hl. cbn in Hl.
    repeat (destruct Hl as [<-|Hl]; [no_prefix_tac|]). destruct Hl.
  - intros rest. no_prefix_tac.
Qed.

Theorem C10_is_not : joins "is" " not" TK_IS TK_IS_NOT.
Proof.
  apply joins_gen.
  - exact lex_one_is.
  - intros p k Hin E. now apply (table_entry p k Hin).
  - intros s n k E Hk. destruct (best_match_in _ _ _ E) as [p Hin].
    destruct (table_entry _ _ Hin) as (H1 & H2 & _).
    destruct (snd_lex_one _ _ _ E) as [->|[[-> ->]|[-> ->]]]; split; congruence.
  - discriminate.
  - discriminate.
  - discriminate.
  - apply (in_table 119). vm_compute. reflexivity.
  - apply word_of_deriv. vm_compute. reflexivity.
  - apply table_lit_kind. vm_compute. reflexivity.
  - intros rest l Hl. cbn in Hl.
    repeat (destruct Hl as [<-|Hl]; [no_prefix_tac|]). destruct Hl.
  - intros rest. no_prefix_tac.
Qed.

Example C10_case :
  map tk_kind (lex (txt "not in not insider is not is nothing not in"))
  = [TK_NOT_IN; TK_WHITESPACE; TK_NOT; TK_WHITESPACE; TK_WORD; TK_WHITESPACE; TK_IS_NOT;
     TK_WHITESPACE; TK_IS; TK_WHITESPACE; TK_WORD; TK_WHITESPACE; TK_NOT_IN].
Proof. vm_compute. reflexivity. Qed.

(** * C39: two-word keywords do not respect word boundaries *)

(** The full statement fails for the five two-word keywords: the identifier after the blank
    is split. *)
Definition C39_statement : Prop := forall src pre t post,
  lex src = pre ++ t :: post ->
  match tk_kind t with
  | TK_STARTS_WITH | TK_ENDS_WITH | TK_SAME_AS | TK_DIVISIBLE_BY | TK_IGNORE_MISSING =>
    ends_word (List.concat (map tk_text post))
  | _ => True
  end.

Theorem C39_two_word_keyword_boundary_refuted : ~ C39_statement.
Proof.
  intros H.
  specialize (H (txt "starts without") [] (mkTok TK_STARTS_WITH (txt "starts with") 0 11)
                [mkTok TK_WORD (txt "out") 11 14]).
  assert (E : lex (txt "starts without") = [mkTok TK_STARTS_WITH (txt "starts with") 0 11;
      mkTok TK_WORD (txt "out") 11 14]) by (vm_compute; reflexivity).
  specialize (H E). vm_compute in H. clear -H. exact (Bool.diff_true_false H).
Qed.

Print Assumptions C01_lex_lossless.
Print Assumptions C09_longest_match.
Print Assumptions C09_identifier.
Print Assumptions C10_not_in.
Print Assumptions C10_is_not.
Print Assumptions C39_two_word_keyword_boundary_refuted.
