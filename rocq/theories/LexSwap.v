(** The tokens of texts in which && and || with white space around them are spelled and and or. *)
From Coq Require Import NArith String Bool Arith Lia List.
Import ListNotations.
From Verif Require Import Text Kind Regex Lexer LexerProofs ParserApi Machine TreeMachine AccSpec Layout LexLayout LexEndings Respell.
Local Notation length := List.length (only parsing).
Local Open Scope list_scope.

(** * Spec *)
Definition gapc (c : N) : bool := N.eqb c 32 || N.eqb c 9 || N.eqb c 10 || N.eqb c 13.
Definition spelling (op word : text) : Prop := (op = txt "&&" /\ word = txt "and") \/ (op = txt "||" /\ word = txt "or").
(** The second text is the first with some && and || spelled and and or, each between two characters of white
    space. The flag tells whether white space stands before the texts. *)
Inductive swapped : bool -> text -> text -> Prop :=
| sw_nil b : swapped b [] []
| sw_char b c s s' : swapped (gapc c) s s' -> swapped b (c :: s) (c :: s')
| sw_op op word v r r' : spelling op word -> gapc v = true -> swapped false (v :: r) (v :: r') ->
    swapped true (op ++ v :: r) (word ++ v :: r').

Lemma swapped_refl : forall s b, swapped b s s.
Proof. induction s as [|c s IH]; intros b; constructor; auto. Qed.
Lemma swapped_weaken b s s' : swapped b s s' -> swapped true s s'.
Proof. intros H. inversion H; subst; econstructor; eauto. Qed.
Definition gap_last (b : bool) (x : text) : bool := fold_left (fun _ c => gapc c) x b.
Lemma swapped_prefix : forall x b s s', swapped (gap_last b x) s s' -> swapped b (x ++ s) (x ++ s').
Proof. induction x as [|c x IH]; intros b s s' H; [exact H|]. cbn [app]. constructor. apply IH. exact H. Qed.
Lemma gap_last_app x w b : gap_last b (x ++ [w]) = gapc w.
Proof. unfold gap_last. now rewrite fold_left_app. Qed.

(** Where the first difference is. *)
Lemma swapped_cases b s s' : swapped b s s' ->
  s = s' \/ exists x op word v r r', s = x ++ op ++ v :: r /\ s' = x ++ word ++ v :: r' /\ spelling op word /\ gapc v = true /\
    swapped false (v :: r) (v :: r') /\ gap_last b x = true.
Proof.
  induction 1 as [b|b c s s' H IH|op word v r r' P V H _].
  - now left.
  - destruct IH as [->|(x & op & word & v & r & r' & -> & -> & P & V & W & G)]; [now left|].
    right. exists (c :: x), op, word, v, r, r'. repeat split; auto.
  - right. exists [], op, word, v, r, r'. repeat split; auto.
Qed.

(** * Patterns do not look from white space into an operator *)
Definition gaps : list N := [32; 9; 10; 13]%N.
Definition spellings : list text := [txt "&&"; txt "||"; txt "and"; txt "or"].
Lemma gapc_in c : gapc c = true -> In c gaps.
Proof.
  unfold gapc. intros H. repeat (apply orb_true_iff in H as [H|H]); apply N.eqb_eq in H; subst c; unfold gaps; cbn [In]; auto.
Qed.
Lemma spelling_in op word : spelling op word -> In op spellings /\ In word spellings.
Proof. intros [[-> ->]|[-> ->]]; unfold spellings; cbn [In]; split; auto 8. Qed.

Definition compatible (a z : text) : bool := starts_with a z || starts_with z a.
Lemma compatible_prefix : forall a z y, starts_with a (z ++ y) = true -> compatible a z = true.
Proof.
  unfold compatible. induction a as [|x a IH]; intros z y H; [reflexivity|]. destruct z as [|c z]; [reflexivity|].
  cbn [app starts_with] in *. apply andb_true_iff in H as [E H]. apply N.eqb_eq in E. subst c. rewrite N.eqb_refl. cbn [andb]. eapply IH. exact H.
Qed.
Fixpoint lit_stops (w : N) (z l : text) : bool :=
  match l with
  | [] => true
  | x :: l' => (negb (N.eqb x w) || match l' with [] => true | _ => negb (compatible l' z) end) && lit_stops w z l'
  end.
Lemma lit_stops_spec w z y : forall q l, lit_stops w z l = true -> starts_with l (q ++ w :: z ++ y) = starts_with l (q ++ [w]).
Proof.
  induction q as [|c q IH]; intros [|x l] H; try reflexivity; cbn [lit_stops] in H; apply andb_true_iff in H as [H1 H2]; cbn [app starts_with].
  - destruct (N.eqb x w); [|reflexivity]. cbn [negb orb andb] in *. destruct l as [|x' l]; [reflexivity|].
    apply negb_true_iff in H1. cbn [starts_with]. destruct (starts_with (x' :: l) (z ++ y)) eqn:E; [|exact E].
    apply compatible_prefix in E. rewrite E in H1. discriminate H1.
  - rewrite IH by exact H2. reflexivity.
Qed.
Definition stops (w : N) (z : text) (p : pattern) : bool :=
  match p with
  | PLit l => lit_stops w z (txt l)
  | PLitCI l => pat_without w p
  | PRe r => re_all (without w) r || match z with h :: _ => re_all (without h) r | [] => false end
  end.
Lemma ci_without w l q y : pat_without w (PLitCI l) = true -> starts_with_ci (txt l) (q ++ w :: y) = starts_with_ci (txt l) q.
Proof. intros H. apply starts_with_ci_without. apply not_exists. exact H. Qed.
Lemma stops_spec w z p q y : stops w z p = true -> pat_len p (q ++ w :: z ++ y) = pat_len p (q ++ [w]).
Proof.
  destruct p as [l|l|r]; cbn [stops pat_len]; intros H.
  - now rewrite lit_stops_spec.
  - now rewrite !ci_without.
  - unfold rlong. apply orb_true_iff in H as [H|H]; [now rewrite !rlong_without|].
    destruct z as [|h z]; [discriminate H|]. replace (q ++ w :: (h :: z) ++ y) with ((q ++ [w]) ++ h :: z ++ y) by (now rewrite <- app_assoc).
    now rewrite rlong_without.
Qed.
Lemma table_stops w z p k : In w gaps -> In z spellings -> In (p, k) lex_table -> stops w z p = true.
Proof.
  assert (H : forallb (fun w => forallb (fun z => forallb (fun e => stops w z (fst e)) lex_table) spellings) gaps = true) by (vm_compute; reflexivity).
  intros W Z I. rewrite forallb_forall in H. specialize (H _ W). rewrite forallb_forall in H. specialize (H _ Z).
  rewrite forallb_forall in H. exact (H _ I).
Qed.
(** ** Nor from an operator into the white space behind it *)
Definition ends (v : N) (z : text) (p : pattern) : bool :=
  match p with
  | PLit l => negb (starts_with (z ++ [v]) (txt l))
  | PLitCI l => pat_without v p
  | PRe r => re_all (without v) r || match z with h :: _ => re_all (without h) r | [] => false end
  end.
Lemma lit_ends v y : forall z l, starts_with (z ++ [v]) l = false -> starts_with l (z ++ v :: y) = starts_with l z.
Proof.
  induction z as [|c z IH]; intros [|x l] H; try reflexivity; cbn [app starts_with] in *.
  - rewrite andb_true_r, N.eqb_sym in H. now rewrite H.
  - destruct (N.eqb x c) eqn:E; [|reflexivity]. rewrite N.eqb_sym, E in H. cbn [andb] in *. now apply IH.
Qed.
Lemma ends_spec v z p y : ends v z p = true -> pat_len p (z ++ v :: y) = pat_len p z.
Proof.
  destruct p as [l|l|r]; cbn [ends pat_len]; intros H.
  - apply negb_true_iff in H. now rewrite lit_ends.
  - now rewrite ci_without.
  - unfold rlong. apply orb_true_iff in H as [H|H]; [now rewrite rlong_without|]. destruct z as [|h z]; [discriminate H|].
    pose proof (rlong_without h [] (z ++ v :: y) r 0 None H) as A. pose proof (rlong_without h [] z r 0 None H) as B. cbn [app] in *. now rewrite A, B.
Qed.
Lemma table_ends v z p k : In v gaps -> In z spellings -> In (p, k) lex_table -> ends v z p = true.
Proof.
  assert (H : forallb (fun w => forallb (fun z => forallb (fun e => ends w z (fst e)) lex_table) spellings) gaps = true) by (vm_compute; reflexivity).
  intros W Z I. rewrite forallb_forall in H. specialize (H _ W). rewrite forallb_forall in H. specialize (H _ Z).
  rewrite forallb_forall in H. exact (H _ I).
Qed.

(** * The next token *)
Definition kind_of (z : text) : kind := snd (lex_one z).
Lemma one_operator z v y : In z spellings -> gapc v = true -> lex_one (z ++ v :: y) = (length z, kind_of z).
Proof.
  intros Z V. apply gapc_in in V. rewrite lex_one_eq.
  rewrite (best_same lex_table (z ++ v :: y) z None) by (intros p k I; apply ends_spec; eapply table_ends; eauto).
  unfold spellings in Z. cbn [In] in Z. destruct Z as [<-|[<-|[<-|[<-|[]]]]]; vm_compute; reflexivity.
Qed.

Lemma cb_stops suf a b q w z y z' y' : (forall x, In x spellings -> lit_stops w x (txt suf) = true) -> gapc w = true ->
  In z spellings -> In z' spellings -> last (txt suf) 0%N <> w -> txt suf <> [] ->
  cb_suffix suf a b (q ++ w :: z ++ y) = cb_suffix suf a b (q ++ w :: z' ++ y') /\ fst (cb_suffix suf a b (q ++ w :: z ++ y)) <= S (length q).
Proof.
  intros L W Z Z' La Ne. unfold cb_suffix. rewrite !lit_stops_spec by auto.
  destruct (starts_with (txt suf) (q ++ [w])) eqn:E; [|split; [reflexivity|cbn [fst]; lia]].
  apply starts_with_iff in E as (r & E). destruct (exists_last (l := r)) as (r0 & c & ->).
  { intros ->. rewrite app_nil_r in E. apply La. rewrite <- E. apply last_last. }
  rewrite app_assoc in E. apply app_inj_tail in E as [-> <-].
  assert (S : forall m, skipn (String.length suf) ((txt suf ++ r0) ++ w :: m) = r0 ++ w :: m).
  { intros m. rewrite <- app_assoc, <- length_txt. rewrite skipn_app, skipn_all, Nat.sub_diag. reflexivity. }
  rewrite !S. split.
  - destruct r0 as [|x r0]; reflexivity.
  - rewrite app_length, length_txt. destruct (boundary_after _); cbn [fst]; lia.
Qed.

Lemma cb_none suf a b z y : starts_with (txt suf) (z ++ y) = false -> cb_suffix suf a b (z ++ y) = (0, a).
Proof. intros H. unfold cb_suffix. now rewrite H. Qed.

(** Before white space and an operator the next token does not depend on the operator and ends before it. *)
Lemma one_before q w z y z' y' : gapc w = true -> In z spellings -> In z' spellings ->
  lex_one (q ++ w :: z ++ y) = lex_one (q ++ w :: z' ++ y') /\ fst (lex_one (q ++ w :: z ++ y)) <= S (length q).
Proof.
  intros W Z Z'. pose proof (gapc_in _ W) as W'. rewrite !lex_one_eq.
  rewrite (best_same lex_table (q ++ w :: z ++ y) (q ++ [w]) None) by (intros p k I; apply stops_spec; eapply table_stops; eauto).
  rewrite (best_same lex_table (q ++ w :: z' ++ y') (q ++ [w]) None) by (intros p k I; apply stops_spec; eapply table_stops; eauto).
  destruct (best_match_table (q ++ [w])) as [[B _]|(p & k & n & B & _ & Hn)]; rewrite B; [split; [reflexivity|cbn [fst]; lia]|].
  rewrite app_length in Hn. cbn [List.length] in Hn.
  assert (X : forall suf a b, (forall x, In x spellings -> lit_stops w x (txt suf) = true) -> last (txt suf) 0%N <> w -> txt suf <> [] ->
     (forall x s, In x spellings -> starts_with (txt suf) (x ++ s) = false) ->
     cb_suffix suf a b (skipn n (q ++ w :: z ++ y)) = cb_suffix suf a b (skipn n (q ++ w :: z' ++ y')) /\
     n + fst (cb_suffix suf a b (skipn n (q ++ w :: z ++ y))) <= S (length q)).
  { intros suf a b L La Ne F. destruct (Nat.eq_dec n (S (length q))) as [->|D].
    - assert (S : forall m, skipn (S (length q)) (q ++ w :: m) = m).
      { intros m. replace (q ++ w :: m) with ((q ++ [w]) ++ m) by (now rewrite <- app_assoc).
        replace (S (length q)) with (length (q ++ [w])) by (rewrite app_length; cbn [List.length]; lia).
        now rewrite skipn_app, skipn_all, Nat.sub_diag. }
      rewrite !S, !cb_none by auto. split; [reflexivity|cbn [fst]; lia].
    - assert (S : forall m, skipn n (q ++ w :: m) = skipn n q ++ w :: m).
      { intros m. rewrite skipn_app. replace (n - length q) with 0 by lia. reflexivity. }
      rewrite !S. destruct (cb_stops suf a b (skipn n q) w z y z' y' L W Z Z' La Ne) as [E1 E2]. split; [exact E1|].
      rewrite skipn_length in E2. lia. }
  assert (Y : forall suf, In suf [" in"; " not"]%string -> (forall x, In x spellings -> lit_stops w x (txt suf) = true) /\ last (txt suf) 0%N <> w /\ txt suf <> [] /\
     (forall x s, In x spellings -> starts_with (txt suf) (x ++ s) = false)).
  { clear -W'. intros suf H. assert (G : forallb (fun w => forallb (fun suf => forallb (fun x => lit_stops w x (txt suf)) spellings && negb (N.eqb (last (txt suf) 0%N) w) &&
        forallb (fun x => negb (compatible (txt suf) x)) spellings) [" in"; " not"]%string) gaps = true) by (vm_compute; reflexivity).
    rewrite forallb_forall in G. specialize (G _ W'). rewrite forallb_forall in G. specialize (G _ H).
    apply andb_true_iff in G as [G G3]. apply andb_true_iff in G as [G1 G2]. rewrite forallb_forall in G1, G3.
    split; [exact G1|]. split; [apply negb_true_iff, N.eqb_neq in G2; exact G2|]. split; [destruct H as [<-|[<-|[]]]; intros E; discriminate E|].
    intros x s Hx. destruct (starts_with (txt suf) (x ++ s)) eqn:E; [|reflexivity]. apply compatible_prefix in E.
    specialize (G3 _ Hx). rewrite E in G3. discriminate G3. }
  destruct (kind_eqb k TK_NOT).
  { destruct (Y " in"%string (or_introl eq_refl)) as (Y1 & Y2 & Y3 & Y4). destruct (X " in"%string TK_NOT TK_NOT_IN Y1 Y2 Y3 Y4) as [E1 E2].
    rewrite <- E1. split; [reflexivity|]. destruct (cb_suffix " in" TK_NOT TK_NOT_IN (skipn n (q ++ w :: z ++ y))). cbn [fst] in *. lia. }
  destruct (kind_eqb k TK_IS).
  { destruct (Y " not"%string (or_intror (or_introl eq_refl))) as (Y1 & Y2 & Y3 & Y4). destruct (X " not"%string TK_IS TK_IS_NOT Y1 Y2 Y3 Y4) as [E1 E2].
    rewrite <- E1. split; [reflexivity|]. destruct (cb_suffix " not" TK_IS TK_IS_NOT (skipn n (q ++ w :: z ++ y))). cbn [fst] in *. lia. }
  split; [reflexivity|cbn [fst]; lia].
Qed.

(** * All tokens *)
Lemma lexed_alike_self : forall s off off' T T', lexed off s T -> lexed off' s T' -> Forall2 alike T T'.
Proof.
  intros s off off' T T' H. revert off' T'. induction H as [off|off s n k t rest Hs E Hn Et _ IH]; intros off' T' H'.
  - inversion H'; [constructor|contradiction].
  - inversion H' as [|? ? n' k' t' rest' Hs' E' Hn' Et' HL']; subst; [contradiction|]. rewrite E in E'. injection E' as <- <-.
    constructor; [left; now split|]. eapply IH. exact HL'.
Qed.
Lemma operators_alike op word o o' e e' : spelling op word -> alike (mkTok (kind_of op) op o e) (mkTok (kind_of word) word o' e').
Proof. intros [[-> ->]|[-> ->]]; right; [left|right]; cbn [tk_kind tk_text]; vm_compute; auto. Qed.
Lemma pair_inv (A B : Type) (a c : A) (b d : B) : (a, b) = (c, d) -> a = c /\ b = d.
Proof. intros H. injection H as -> ->. auto. Qed.
Theorem lexed_swapped : forall m s s' b off off' T T', length s <= m -> swapped b s s' -> lexed off s T -> lexed off' s' T' -> Forall2 alike T T'.
Proof.
  induction m as [|m IH]; intros s s' b off off' T T' L W H H'.
  { destruct s; [|cbn [List.length] in L; lia]. inversion W as [| |op word v r r' [[-> _]|[-> _]]]; subst; try discriminate.
    inversion H; [|contradiction]. inversion H'; [|contradiction]. constructor. }
  destruct (swapped_cases _ _ _ W) as [<-|(x & op & word & v & r & r' & -> & -> & P & V & D & G)]; [eapply lexed_alike_self; eauto|].
  destruct (spelling_in _ _ P) as [I I'].
  assert (Cut : forall z y, skipn (length z) (z ++ v :: y) = v :: y) by (intros z y; now rewrite skipn_app, skipn_all, Nat.sub_diag).
  destruct (list_eq_dec N.eq_dec x []) as [->|Nx].
  - cbn [app] in *. inversion H as [|? ? n k t rest Hs E Hn Et HL]; subst; [destruct P as [[-> _]|[-> _]]; discriminate|].
    inversion H' as [|? ? n' k' t' rest' Hs' E' Hn' Et' HL']; subst; [destruct P as [[_ ->]|[_ ->]]; discriminate|].
    rewrite one_operator in E, E' by assumption. apply pair_inv in E as [<- <-]. apply pair_inv in E' as [<- <-]. rewrite !firstn_app_exact in *. rewrite !Cut in *.
    constructor; [now apply operators_alike|]. eapply IH; [|exact D|exact HL|exact HL']. rewrite app_length in L. destruct P as [[-> _]|[-> _]]; cbn [List.length txt] in *; cbn in L; lia.
  - destruct (exists_last Nx) as (q & w & ->). rewrite gap_last_app in G.
    assert (A : forall z y, (q ++ [w]) ++ z ++ y = q ++ w :: z ++ y) by (intros z y; now rewrite <- app_assoc).
    destruct (one_before q w op (v :: r) word (v :: r') G I I') as [E1 E2].
    inversion H as [|? ? n k t rest Hs E Hn Et HL]; subst; [destruct q; discriminate|].
    inversion H' as [|? ? n' k' t' rest' Hs' E' Hn' Et' HL']; subst; [destruct q; discriminate|].
    rewrite A in E, E'. rewrite <- E1, E in E'. injection E' as <- <-. rewrite E in E2. cbn [fst] in E2.
    assert (Ln : n <= length (q ++ [w])) by (rewrite app_length; cbn [List.length]; lia).
    assert (F : forall y, firstn n ((q ++ [w]) ++ y) = firstn n (q ++ [w])).
    { intros y. rewrite firstn_app. replace (n - length (q ++ [w])) with 0 by lia. cbn [firstn]. apply app_nil_r. }
    assert (K : forall y, skipn n ((q ++ [w]) ++ y) = skipn n (q ++ [w]) ++ y).
    { intros y. rewrite skipn_app. now replace (n - length (q ++ [w])) with 0 by lia. }
    rewrite !F, !K in *. constructor; [left; now split|].
    apply (IH (skipn n (q ++ [w]) ++ op ++ v :: r) (skipn n (q ++ [w]) ++ word ++ v :: r') true (off + blen (firstn n (q ++ [w]))) (off' + blen (firstn n (q ++ [w])))); [|apply swapped_prefix|exact HL|exact HL'].
    + rewrite app_length, skipn_length. rewrite app_length in L. lia.
    + replace (gap_last true (skipn n (q ++ [w]))) with true; [now constructor|]. symmetry.
      destruct (Nat.eq_dec n (length (q ++ [w]))) as [->|Dn]; [now rewrite skipn_all|].
      rewrite skipn_app. replace (n - length q) with 0 by (rewrite app_length in *; cbn [List.length] in *; lia). cbn [skipn]. now rewrite gap_last_app.
Qed.

(** * Tokens without white space *)
Lemma lexed_after : forall off s T, lexed off s T -> forall t, In t T -> off <= tk_start t.
Proof.
  induction 1 as [|off s n k t rest Hs E Hn Et _ IH]; intros u Hu; [destruct Hu|]. destruct Hu as [<-|Hu]; [cbn [tk_start]; lia|].
  apply IH in Hu. lia.
Qed.
Lemma first_token off s T u l : lexed off s T -> nontriv T = u :: l -> tk_start u = off -> exists r, T = u :: r.
Proof.
  intros H N E. inversion H as [|? ? n k t rest Hs E' Hn Et HL]; subst; [discriminate N|]. cbn [nontriv filter negb tk_kind] in N.
  destruct (is_trivia k) eqn:K.
  - cbn [negb] in N. exfalso. assert (I : In u (nontriv rest)) by (unfold nontriv; rewrite N; now left).
    apply filter_In in I as [I _]. pose proof (lexed_after _ _ _ HL u I) as Q.
    assert (Bl : 1 <= blen (firstn n s)).
    { destruct (blen (firstn n s)) eqn:Z; [|lia]. apply blen_zero in Z. apply (f_equal (@List.length BinNums.N)) in Z. rewrite firstn_length in Z. cbn [List.length] in Z. lia. }
    lia.
  - cbn [negb] in N. injection N as <- <-. eauto.
Qed.
Lemma alike_trivia t t' : alike t t' -> is_trivia (tk_kind t) = is_trivia (tk_kind t').
Proof. intros [[E _]|[(-> & _ & -> & _)|(-> & _ & -> & _)]]; [now rewrite E|reflexivity|reflexivity]. Qed.
Theorem lexed_respelled : forall T T', Forall2 alike T T' -> forall off off' s s', lexed off s T -> lexed off' s' T' ->
  respelled (nontriv T) (nontriv T').
Proof.
  induction 1 as [|t t' T T' A F IH]; intros off off' s s' H H'; [constructor|].
  inversion H as [|? ? n k x rest Hs E Hn Et HL]; subst. inversion H' as [|? ? n' k' x' rest' Hs' E' Hn' Et' HL']; subst.
  specialize (IH _ _ _ _ HL HL'). pose proof (alike_trivia _ _ A) as Tr. cbn [tk_kind] in Tr.
  cbn [nontriv filter tk_kind]. rewrite <- Tr. destruct (is_trivia k); cbn [negb]; [exact IH|]. fold (nontriv T). fold (nontriv T').
  destruct (nontriv T) as [|u l] eqn:N.
  - apply r_nil in IH. rewrite IH. now constructor.
  - destruct (nontriv T') as [|u' l'] eqn:N'; [inversion IH|]. constructor; [exact A| |exact IH]. intros _ G. cbn [tk_end] in *.
    destruct (first_token _ _ _ _ _ HL N (eq_sym G)) as (r & ->). inversion F as [|? y ? R' A' F' Q1 Q2]; subst.
    pose proof (alike_trivia _ _ A') as Tr'. assert (U : is_trivia (tk_kind u) = false).
    { assert (I : In u (nontriv (u :: r))) by (rewrite N; now left). apply filter_In in I as [_ I]. now apply negb_true_iff in I. }
    cbn [nontriv filter] in N'. rewrite <- Tr', U in N'. cbn [negb] in N'. injection N' as <- <-.
    inversion HL' as [|? ? n2 k2 x2 r2 Hs2 E2 Hn2 Et2 HL2]; subst. reflexivity.
Qed.
Theorem swapped_respelled b s s' : swapped b s s' -> Forall2 alike (lex s) (lex s') /\ respelled (nontriv (lex s)) (nontriv (lex s')).
Proof.
  intros W. assert (F : Forall2 alike (lex s) (lex s')) by (exact (lexed_swapped _ s s' b 0 0 _ _ (le_n _) W (lex_lexed s) (lex_lexed s'))).
  split; [exact F|]. exact (lexed_respelled _ _ F _ _ _ _ (lex_lexed s) (lex_lexed s')).
Qed.
