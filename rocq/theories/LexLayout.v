(** The tokens of texts that differ in the indentation of their lines only. *)
From Coq Require Import NArith String Bool Arith Lia List.
Import ListNotations.
From Verif Require Import Text Kind Regex Lexer LexerProofs PropLexer Machine ParserApi Total PropLines Layout.
Local Notation length := List.length (only parsing).
Local Open Scope list_scope.

Definition blankc (c : N) : bool := N.eqb c 32 || N.eqb c 9.

(** * Tokens of white space *)

Fixpoint re_all (f : N * N -> bool) (r : regex) : bool :=
  match r with
  | REmpty | REps => true
  | RClass cl => forallb f cl
  | RSeq a b | RAlt a b => re_all f a && re_all f b
  | RStar a => re_all f a
  end.

Lemma re_all_match : forall f (P : N -> Prop), (forall p c, f p = true -> in_range (fst p) (snd p) c = true -> P c) ->
  forall r s, rmatch r s -> re_all f r = true -> Forall P s.
Proof.
  intros f P HP r s H. induction H as [|cl c Hc|a b s t H1 IH1 H2 IH2|a b s H IH|a b s H IH|a|a s t H1 IH1 H2 IH2]; cbn [re_all]; intros E;
    try (apply andb_true_iff in E as [E1 E2]); auto.
  - constructor; [|constructor]. unfold in_class in Hc. apply existsb_exists in Hc as (p & Hp & Hr).
    rewrite forallb_forall in E. now apply (HP p c (E p Hp)).
  - apply Forall_app. auto.
  - apply Forall_app. auto.
Qed.

Definition blank_range (p : N * N) : bool := N.eqb (fst p) (snd p) && blankc (fst p).

Lemma ws_entry : forall p s, In (p, TK_WHITESPACE) lex_table -> pat_matches p s -> Forall (fun c => blankc c = true) s.
Proof.
  assert (H : forallb (fun e => negb (kind_eqb (snd e) TK_WHITESPACE) ||
     match fst e with PRe r => re_all blank_range r | _ => false end) lex_table = true) by (vm_compute; reflexivity).
  intros p s I M. rewrite forallb_forall in H. specialize (H _ I). cbn [fst snd] in H. rewrite kind_eqb_refl in H.
  cbn [negb orb] in H. destruct p as [| |r]; try discriminate. cbn [pat_matches] in M.
  eapply re_all_match; [|exact M|exact H]. intros [a b] c Hf Hr. unfold blank_range in Hf. cbn [fst snd] in *.
  apply andb_true_iff in Hf as [E B]. apply N.eqb_eq in E. subst b. unfold in_range in Hr.
  apply andb_true_iff in Hr as [R1 R2]. apply N.leb_le in R1, R2. assert (c = a) as -> by lia. exact B.
Qed.

Lemma one_best : forall s n k, lex_one s = (n, k) -> is_trivia k = true ->
  exists p, winner s p k n.
Proof.
  intros s n k E Hk. rewrite lex_one_eq in E.
  destruct (best_match_table s) as [[B _]|(p & k0 & m & B & W & _)]; rewrite B in E.
  - injection E as <- <-. discriminate Hk.
  - assert (X : forall suf a b rest n0, is_trivia a = false -> is_trivia b = false ->
       (let (b0, k') := cb_suffix suf a b rest in (n0 + b0, k')) = (n, k) -> False).
    { intros suf a b rest n0 Ha Hb. unfold cb_suffix. destruct (starts_with _ _); [destruct (boundary_after _)|];
        intros [= _ <-]; clear B W; congruence. }
    destruct (kind_eqb k0 TK_NOT).
    { exfalso. eapply X; [| |exact E]; reflexivity. }
    destruct (kind_eqb k0 TK_IS).
    { exfalso. eapply X; [| |exact E]; reflexivity. }
    injection E as <- <-. now exists p.
Qed.

Lemma trivia_kinds : forall k, is_trivia k = true -> k = TK_WHITESPACE \/ k = TK_LINE_BREAK.
Proof. intros k. destruct k; cbn [is_trivia]; intros H; try discriminate H; auto. Qed.

(** What a white-space token looks like. *)
Lemma one_triv : forall s n k, lex_one s = (n, k) -> is_trivia k = true ->
  (k = TK_WHITESPACE /\ Forall (fun c => blankc c = true) (firstn n s)) \/
  (k = TK_LINE_BREAK /\ exists l, l <> [] /\ firstn n s = breaks l).
Proof.
  intros s n k E Hk. destruct (one_best s n k E Hk) as (p & t1 & t2 & Et & (_ & M & _) & _).
  assert (I : In (p, k) lex_table) by (rewrite Et; apply in_elt).
  destruct (trivia_kinds k Hk) as [->| ->].
  - left. split; [reflexivity|]. eapply ws_entry; eauto.
  - right. split; [reflexivity|]. apply break_entry in I. subst p. now apply break_pattern.
Qed.

(** ** Where white space starts *)
Definition starts (c : N) (p : pattern) : bool :=
  match p with
  | PLit l => match txt l with x :: _ => N.eqb x c | [] => true end
  | PLitCI l => match txt l with x :: _ => N.eqb (to_lower_ascii x) (to_lower_ascii c) | [] => true end
  | PRe r => negb (is_rempty (deriv c r))
  end.

Lemma starts_spec : forall p c s, starts c p = false -> forall m, 1 <= m -> ~ pat_matches p (firstn m (c :: s)).
Proof.
  intros p c s H m Hm. destruct m as [|m]; [lia|]. cbn [firstn]. destruct p as [l|l|r]; cbn [pat_matches starts] in *.
  - destruct (txt l) as [|x w]; [discriminate|]. intros [= <- _]. now rewrite N.eqb_refl in H.
  - destruct (txt l) as [|x w]; [discriminate|]. cbn [map]. intros [= E _]. rewrite E, N.eqb_refl in H. discriminate.
  - apply negb_false_iff in H. intros M. apply deriv_spec in M. destruct (deriv c r); try discriminate. now apply rmatch_empty in M.
Qed.

Lemma one_starts : forall c s k, (forall p k', In (p, k') lex_table -> k' <> k -> starts c p = false) ->
  is_trivia k = true -> (exists p m, In (p, k) lex_table /\ m <= length (c :: s) /\ pat_matches p (firstn m (c :: s))) ->
  snd (lex_one (c :: s)) = k.
Proof.
  intros c s k Hs Hk (p & m & I & Hm & M). rewrite lex_one_eq.
  destruct (best_match_table (c :: s)) as [[B Hno]|(p0 & k0 & m0 & B & W & Hm0)]; rewrite B.
  - exfalso. eapply Hno; eauto.
  - destruct W as (t1 & t2 & Et & (_ & M0 & _) & _).
    assert (I0 : In (p0, k0) lex_table) by (rewrite Et; apply in_elt).
    destruct (kind_eq_dec k0 k) as [->|Ne].
    + destruct (trivia_kinds k Hk) as [->| ->]; reflexivity.
    + exfalso. apply (starts_spec p0 c s (Hs _ _ I0 Ne) m0); [lia|exact M0].
Qed.

Lemma table_starts : forall c k,
  forallb (fun e => kind_eqb (snd e) k || negb (starts c (fst e))) lex_table = true ->
  forall p k', In (p, k') lex_table -> k' <> k -> starts c p = false.
Proof.
  intros c k H p k' I N. rewrite forallb_forall in H. specialize (H _ I). cbn [fst snd] in H.
  apply orb_true_iff in H as [H|H]; [apply kind_eqb_eq in H; contradiction|]. now apply negb_true_iff.
Qed.

Lemma one_blank : forall c s, blankc c = true -> snd (lex_one (c :: s)) = TK_WHITESPACE.
Proof.
  intros c s H. unfold blankc in H. apply orb_true_iff in H.
  destruct H as [H|H]; apply N.eqb_eq in H; subst c;
  (apply one_starts; [apply table_starts; vm_compute; reflexivity|reflexivity|];
   exists (PRe re_ws), 1; split; [|split; [cbn; lia|]];
   [apply (in_table 156); vm_compute; reflexivity|];
   cbn [firstn pat_matches]; apply deriv_spec; apply nullable_spec; vm_compute; reflexivity).
Qed.

Lemma one_break : forall c s, (c = 10%N \/ c = 13%N /\ exists s', s = 10%N :: s') -> snd (lex_one (c :: s)) = TK_LINE_BREAK.
Proof.
  intros c s [->|[-> (s' & ->)]];
  (apply one_starts; [apply table_starts; vm_compute; reflexivity|reflexivity|]).
  - exists (PRe re_lb), 1; split; [apply (in_table 157); vm_compute; reflexivity|split; [cbn; lia|]].
    cbn [firstn pat_matches]; apply deriv_spec; apply nullable_spec; vm_compute; reflexivity.
  - exists (PRe re_lb), 2; split; [apply (in_table 157); vm_compute; reflexivity|split; [cbn; lia|]].
    cbn [firstn pat_matches]; apply (proj1 (deriv_spec _ _ _)); apply (proj1 (deriv_spec _ _ _)); apply nullable_spec; vm_compute; reflexivity.
Qed.

(** * Runs of white space *)

Fixpoint skipgap (s : text) : text :=
  match s with
  | [] => []
  | c :: s' =>
    if blankc c || N.eqb c 10 then skipgap s'
    else if N.eqb c 13 then match s' with d :: s2 => if N.eqb d 10 then skipgap s2 else s | [] => s end
    else s
  end.

Lemma skip_blanks : forall b s, Forall (fun c => blankc c = true) b -> skipgap (b ++ s) = skipgap s.
Proof. induction 1 as [|c b Hc _ IH]; [reflexivity|]. cbn [app skipgap]. now rewrite Hc. Qed.
Lemma skip_breaks : forall l s, skipgap (breaks l ++ s) = skipgap s.
Proof.
  induction l as [|[] l IH]; intros s; [reflexivity| |]; unfold breaks; cbn [flat_map]; fold (breaks l); cbn [app skipgap]; apply IH.
Qed.

Lemma skip_length : forall s, length (skipgap s) <= length s.
Proof.
  assert (H : forall n s, length s <= n -> length (skipgap s) <= length s).
  { induction n as [|n IH]; intros [|c s] Hn; cbn [length] in *; try (cbn; lia). cbn [skipgap].
    destruct (_ || _); [specialize (IH s ltac:(lia)); lia|]. destruct (N.eqb c 13); [|cbn; lia].
    destruct s as [|d s2]; [cbn; lia|]. destruct (N.eqb d 10); [|cbn; lia].
    cbn [length] in *. specialize (IH s2 ltac:(lia)). lia. }
  intros s. now apply (H (length s)).
Qed.

(** The first characters decide whether a token is white space. *)
Definition gap_char (s : text) : option kind :=
  match s with
  | [] => None
  | c :: s' =>
    if blankc c then Some TK_WHITESPACE
    else if N.eqb c 10 then Some TK_LINE_BREAK
    else if N.eqb c 13 then match s' with d :: _ => if N.eqb d 10 then Some TK_LINE_BREAK else None | [] => None end
    else None
  end.

Lemma gap_one : forall s k, gap_char s = Some k -> snd (lex_one s) = k.
Proof.
  intros [|c s] k; cbn [gap_char]; [discriminate|].
  destruct (blankc c) eqn:B; [intros [= <-]; now apply one_blank|].
  destruct (N.eqb c 10) eqn:E; [apply N.eqb_eq in E; intros [= <-]; apply one_break; auto|].
  destruct (N.eqb c 13) eqn:E2; [|discriminate]. apply N.eqb_eq in E2. destruct s as [|d s]; [discriminate|].
  destruct (N.eqb d 10) eqn:E3; [|discriminate]. apply N.eqb_eq in E3. intros [= <-]. apply one_break. right. subst. eauto.
Qed.

Lemma gap_none : forall s n k, lex_one s = (n, k) -> 1 <= n <= length s -> gap_char s = None -> is_trivia k = false.
Proof.
  intros s n k E Hn G. destruct (is_trivia k) eqn:Hk; [|reflexivity]. exfalso.
  destruct (one_triv s n k E Hk) as [[_ F]|[_ (l & Nl & Eb)]].
  - destruct s as [|c s]; [cbn in Hn; lia|]. destruct n as [|n]; [lia|]. cbn [firstn] in F. inversion F as [|? ? Hc _]; subst.
    cbn [gap_char] in G. rewrite Hc in G. discriminate G.
  - destruct l as [|[] l]; [contradiction| |]; unfold breaks in Eb; cbn [flat_map app] in Eb.
    + destruct n as [|[|n]]; destruct s as [|c [|d s]]; cbn [firstn] in Eb; try discriminate Eb. injection Eb as -> -> _.
      discriminate G.
    + destruct n as [|n]; destruct s as [|c s]; cbn [firstn] in Eb; try discriminate Eb. injection Eb as -> _. discriminate G.
Qed.

Lemma skip_gap_char : forall s, gap_char (skipgap s) = None.
Proof.
  assert (H : forall n s, length s <= n -> gap_char (skipgap s) = None).
  { induction n as [|n IH]; intros [|c s] Hn; cbn [length] in *; try (cbn; reflexivity || lia). cbn [skipgap].
    destruct (blankc c) eqn:B; cbn [orb]; [apply IH; lia|]. destruct (N.eqb c 10) eqn:E; [apply IH; lia|].
    destruct (N.eqb c 13) eqn:E2; [|cbn [gap_char]; now rewrite B, E, E2].
    destruct s as [|d s2]; [cbn [gap_char]; now rewrite B, E, E2|]. destruct (N.eqb d 10) eqn:E3.
    - apply IH. cbn [length] in Hn. lia.
    - cbn [gap_char]. now rewrite B, E, E2, E3. }
  intros s. now apply (H (length s)).
Qed.
Lemma skip_id : forall s, gap_char s = None -> skipgap s = s.
Proof.
  intros [|c s]; [reflexivity|]. cbn [gap_char skipgap]. destruct (blankc c); [discriminate|]. cbn [orb].
  destruct (N.eqb c 10); [discriminate|]. destruct (N.eqb c 13); [|reflexivity]. destruct s as [|d s]; [reflexivity|].
  destruct (N.eqb d 10); [discriminate|reflexivity].
Qed.

Lemma blankc_cases : forall c, blankc c = true -> (c = 32 \/ c = 9)%N.
Proof. intros c H. apply orb_true_iff in H as [H|H]; apply N.eqb_eq in H; auto. Qed.

Lemma triv_blank : forall s n k a b, lex_one s = (n, k) -> 1 <= n <= length s -> is_trivia k = true ->
  blank (mkTok k (firstn n s) a b).
Proof.
  intros s n k a b E Hn Hk. split; [exact Hk|]. cbn [tk_text].
  destruct (one_triv s n k E Hk) as [[_ F]|[_ (l & Nl & Eb)]].
  - destruct s as [|c s]; [cbn in Hn; lia|]. destruct n as [|n]; [lia|]. cbn [firstn] in *. inversion F as [|? ? Hc _]; subst.
    exists c, (firstn n s). split; [reflexivity|]. apply blankc_cases in Hc. tauto.
  - rewrite Eb. destruct l as [|[] l]; [contradiction| |]; unfold breaks; cbn [flat_map app]; do 2 eexists; (split; [reflexivity|]); unfold CR, LF; auto.
Qed.

Lemma lexed_blanks : forall off s ts, lexed off s ts -> forall t, In t ts -> is_trivia (tk_kind t) = true -> blank t.
Proof.
  induction 1 as [|off s n k t rest Hs E Hn Et HL IH]; intros u Hu Hk; [destruct Hu|].
  destruct Hu as [<-|Hu]; [|now apply IH]. subst t. cbn [tk_kind] in Hk. now apply triv_blank.
Qed.

(** The white space at the start of a text. *)
Lemma gap_split : forall off s ts, lexed off s ts ->
  exists g r off', ts = g ++ r /\ Forall blank g /\ lexed off' (skipgap s) r /\ head_kind g = gap_char s.
Proof.
  induction 1 as [off|off s n k t rest Hs E Hn Et HL IH].
  - exists [], [], off. repeat split; constructor.
  - destruct (gap_char s) as [k0|] eqn:G.
    + pose proof (gap_one _ _ G) as Ek. rewrite E in Ek. cbn [snd] in Ek. subst k0.
      assert (Hk : is_trivia k = true).
      { destruct s as [|c s]; [contradiction|]. cbn [gap_char] in G.
        destruct (blankc c); [injection G as <-; reflexivity|]. destruct (N.eqb c 10); [injection G as <-; reflexivity|].
        destruct (N.eqb c 13); [|discriminate G]. destruct s as [|d s]; [discriminate G|].
        destruct (N.eqb d 10); [injection G as <-; reflexivity|discriminate G]. }
      destruct IH as (g & r & off' & -> & Fg & HL' & _).
      exists (mkTok k t off (off + blen t) :: g), r, off'. split; [reflexivity|]. split; [|split].
      * constructor; [|exact Fg]. subst t. now apply triv_blank.
      * assert (Sk : skipgap s = skipgap (skipn n s)); [|now rewrite Sk].
        rewrite <- (firstn_skipn n s) at 1.
        destruct (one_triv s n k E Hk) as [[_ F]|[_ (l & _ & ->)]]; [now apply skip_blanks|apply skip_breaks].
      * reflexivity.
    + exists [], (mkTok k t off (off + blen t) :: rest), off. split; [reflexivity|]. split; [constructor|]. split; [|reflexivity].
      rewrite skip_id by exact G. econstructor; eauto.
Qed.

(** * A token ends with its line *)

Definition no_lf (p : N * N) : bool := negb (in_range (fst p) (snd p) 10).

Lemma deriv_lf : forall r, re_all no_lf r = true -> deriv 10 r = REmpty.
Proof.
  induction r as [| |cl|a IHa b IHb|a IHa b IHb|a IHa]; cbn [re_all deriv]; intros H; auto.
  - assert (E : in_class cl 10 = false); [|now rewrite E].
    unfold in_class. induction cl as [|p cl IH]; [reflexivity|]. cbn [forallb existsb] in *.
    apply andb_true_iff in H as [H1 H2]. apply negb_true_iff in H1. rewrite H1. now apply IH.
  - apply andb_true_iff in H as [H1 H2]. rewrite IHa, IHb by assumption. destruct (nullable a); reflexivity.
  - apply andb_true_iff in H as [H1 H2]. rewrite IHa, IHb by assumption. reflexivity.
  - rewrite IHa by assumption. reflexivity.
Qed.

Lemma all_sseq : forall f a b, re_all f a = true -> re_all f b = true -> re_all f (sseq a b) = true.
Proof. intros f a b Ha Hb. destruct a; destruct b; cbn in *; rewrite ?Ha, ?Hb; auto. Qed.
Lemma all_salt : forall f a b, re_all f a = true -> re_all f b = true -> re_all f (salt a b) = true.
Proof. intros f a b Ha Hb. destruct a; destruct b; cbn in *; rewrite ?Ha, ?Hb; auto. Qed.
Lemma all_deriv : forall f c r, re_all f r = true -> re_all f (deriv c r) = true.
Proof.
  induction r as [| |cl|a IHa b IHb|a IHa b IHb|a IHa]; cbn [re_all deriv]; intros H; auto.
  - destruct (in_class cl c); reflexivity.
  - apply andb_true_iff in H as [H1 H2]. destruct (nullable a); auto using all_sseq, all_salt.
  - apply andb_true_iff in H as [H1 H2]. auto using all_salt.
  - auto using all_sseq.
Qed.

Lemma rlong_local : forall l v r n best, re_all no_lf r = true -> ~ In 10%N l ->
  rlong_go r (l ++ 10%N :: v) n best = rlong_go r l n best.
Proof.
  induction l as [|c l IH]; intros v r n best Hr Hl.
  - cbn [app rlong_go]. rewrite deriv_lf by exact Hr. reflexivity.
  - cbn [app rlong_go]. destruct (is_rempty (deriv c r)); [reflexivity|]. apply IH; [now apply all_deriv|]. intros H. apply Hl. now right.
Qed.

Lemma starts_with_local : forall p l v, ~ In 10%N p -> starts_with p (l ++ 10%N :: v) = starts_with p l.
Proof.
  induction p as [|x p IH]; intros l v Hp; [reflexivity|]. destruct l as [|y l]; cbn [app starts_with].
  - assert (E : N.eqb x 10 = false) by (apply N.eqb_neq; intros ->; apply Hp; now left). now rewrite E.
  - rewrite IH; [reflexivity|]. intros H. apply Hp. now right.
Qed.
Lemma starts_with_ci_local : forall p l v, ~ In 10%N (map to_lower_ascii p) -> starts_with_ci p (l ++ 10%N :: v) = starts_with_ci p l.
Proof.
  induction p as [|x p IH]; intros l v Hp; [reflexivity|]. destruct l as [|y l]; cbn [app starts_with_ci].
  - assert (E : N.eqb (to_lower_ascii x) (to_lower_ascii 10) = false); [|now rewrite E].
    apply N.eqb_neq. intros E. apply Hp. left. exact E.
  - rewrite IH; [reflexivity|]. intros H. apply Hp. now right.
Qed.

Definition pat_avoids (p : pattern) : bool :=
  match p with
  | PLit l => negb (existsb (N.eqb 10) (txt l))
  | PLitCI l => negb (existsb (N.eqb 10) (map to_lower_ascii (txt l)))
  | PRe r => re_all no_lf r
  end.

Lemma not_exists_in : forall l, negb (existsb (N.eqb 10) l) = true -> ~ In 10%N l.
Proof.
  intros l H I. apply negb_true_iff in H. assert (E : existsb (N.eqb 10) l = true); [|congruence].
  apply existsb_exists. exists 10%N. auto.
Qed.

Lemma lb_none : forall l v, l <> [] -> l <> [13%N] -> ~ In 10%N l -> pat_len (PRe re_lb) (l ++ v) = None.
Proof.
  intros l v N1 N2 Hl. destruct (pat_len_spec (PRe re_lb) (l ++ v)) as [[E _]|(m & _ & _ & M & _)]; [exact E|]. exfalso.
  cbn [pat_matches] in M. apply break_pattern in M as (bs & Nb & M).
  destruct l as [|c l]; [contradiction|]. destruct bs as [|[] bs]; [contradiction| |]; unfold breaks in M; cbn [flat_map app] in M.
  - destruct m as [|[|m]]; cbn [firstn app] in M; try discriminate M.
    destruct l as [|d l]; cbn [app] in M; [injection M as -> _; now apply N2|].
    injection M as _ -> _. apply Hl. right. left. reflexivity.
  - destruct m as [|m]; cbn [firstn app] in M; try discriminate M. injection M as -> _. apply Hl. now left.
Qed.

Lemma pat_local : forall p k l v, In (p, k) lex_table -> l <> [] -> l <> [13%N] -> ~ In 10%N l ->
  pat_len p (l ++ 10%N :: v) = pat_len p l.
Proof.
  assert (H : forallb (fun e => kind_eqb (snd e) TK_LINE_BREAK || pat_avoids (fst e)) lex_table = true) by (vm_compute; reflexivity).
  intros p k l v I N1 N2 Hl. rewrite forallb_forall in H. specialize (H _ I). cbn [fst snd] in H.
  apply orb_true_iff in H as [H|H].
  - apply kind_eqb_eq in H. subst k. apply break_entry in I. subst p. rewrite lb_none by assumption.
    pose proof (lb_none l [] N1 N2 Hl) as E. rewrite app_nil_r in E. now rewrite E.
  - destruct p as [s|s|r]; cbn [pat_avoids pat_len] in *.
    + rewrite starts_with_local by (now apply not_exists_in). reflexivity.
    + rewrite starts_with_ci_local by (now apply not_exists_in). reflexivity.
    + now apply rlong_local.
Qed.

Lemma best_same : forall tbl s s' best, (forall p k, In (p, k) tbl -> pat_len p s = pat_len p s') ->
  best_match tbl s best = best_match tbl s' best.
Proof.
  induction tbl as [|[p k] tbl IH]; intros s s' best H; [reflexivity|]. cbn [best_match].
  rewrite (H p k) by (now left). apply IH. intros. eapply H. right. eassumption.
Qed.

Lemma cb_local : forall suf a b l v v', ~ In 10%N (txt suf) ->
  cb_suffix suf a b (l ++ 10%N :: v) = cb_suffix suf a b (l ++ 10%N :: v') /\ fst (cb_suffix suf a b (l ++ 10%N :: v)) <= length l.
Proof.
  intros suf a b l v v' Hs. unfold cb_suffix. rewrite !starts_with_local by exact Hs.
  destruct (starts_with (txt suf) l) eqn:E; [|cbn; split; [reflexivity|lia]].
  apply starts_with_iff in E as (w & ->). rewrite <- !app_assoc, !skipn_txt.
  replace (boundary_after (w ++ 10%N :: v)) with (boundary_after (w ++ 10%N :: v')) by (destruct w; reflexivity).
  split; [reflexivity|]. destruct (boundary_after _); cbn [fst]; [|lia]. rewrite app_length, length_txt. lia.
Qed.

(** The next token of a line does not depend on what is behind the line. *)
Lemma one_local : forall l v v', l <> [] -> l <> [13%N] -> ~ In 10%N l ->
  lex_one (l ++ 10%N :: v) = lex_one (l ++ 10%N :: v') /\ fst (lex_one (l ++ 10%N :: v)) <= length l.
Proof.
  intros l v v' N1 N2 Hl. rewrite !lex_one_eq.
  assert (E : best_match lex_table (l ++ 10%N :: v) None = best_match lex_table l None).
  { apply best_same. intros p k I. eapply pat_local; eauto. }
  assert (E' : best_match lex_table (l ++ 10%N :: v') None = best_match lex_table l None).
  { apply best_same. intros p k I. eapply pat_local; eauto. }
  rewrite E, E'. clear E E'.
  destruct (best_match_table l) as [[-> _]|(p & k & n & -> & _ & Hn)].
  { split; [reflexivity|]. cbn [fst]. destruct l; [contradiction|]. cbn [length]. lia. }
  assert (Sk : forall w, skipn n (l ++ w) = skipn n l ++ w).
  { intros w. rewrite skipn_app. replace (n - length l) with 0 by lia. reflexivity. }
  rewrite !Sk. assert (HL : length (skipn n l) = length l - n) by apply skipn_length.
  assert (X : forall suf a b, ~ In 10%N (txt suf) ->
    (let (b0, k') := cb_suffix suf a b (skipn n l ++ 10%N :: v) in (n + b0, k')) =
    (let (b0, k') := cb_suffix suf a b (skipn n l ++ 10%N :: v') in (n + b0, k')) /\
    fst (let (b0, k') := cb_suffix suf a b (skipn n l ++ 10%N :: v) in (n + b0, k')) <= length l).
  { intros suf a b Hs. destruct (cb_local suf a b (skipn n l) v v' Hs) as [Ec Lc]. rewrite <- Ec. split; [reflexivity|].
    destruct (cb_suffix _ _ _ _) as [b0 k']. cbn [fst] in *. lia. }
  destruct (kind_eqb k TK_NOT); [apply X; cbn; intuition discriminate|].
  destruct (kind_eqb k TK_IS); [apply X; cbn; intuition discriminate|].
  cbn [fst]. split; [reflexivity|lia].
Qed.

(** * Texts with the same lines *)

(** Texts that go on with the same rest of a line, followed by lines that differ in their
    indentation only. *)
Inductive near : text -> text -> Prop :=
| near_end l : ~ In 10%N l -> near l l
| near_line l v v' : ~ In 10%N l -> same_lines v v' -> near (l ++ 10%N :: v) (l ++ 10%N :: v').

Lemma lines_cons : forall s, exists l ls, lines s = l :: ls.
Proof.
  induction s as [|c s (l & ls & E)]; cbn [lines]; [eauto|]. destruct (N.eqb c 10); [eauto|]. rewrite E. eauto.
Qed.

Lemma lines_split : forall s l ls, lines s = l :: ls -> ~ In 10%N l /\
  ((ls = [] /\ s = l) \/ exists v, s = l ++ 10%N :: v /\ ls = lines v).
Proof.
  induction s as [|c s IH]; intros l ls H; cbn [lines] in H.
  - injection H as <- <-. split; [intros []|]. now left.
  - destruct (N.eqb c 10) eqn:E.
    + apply N.eqb_eq in E. subst c. injection H as <- <-. split; [intros []|]. right. exists s. split; reflexivity.
    + apply N.eqb_neq in E. destruct (lines_cons s) as (l1 & ls1 & E1). rewrite E1 in H. injection H as <- <-.
      destruct (IH l1 ls1 E1) as (N1 & [[-> ->]|(v & -> & ->)]).
      * split; [intros [H|H]; [now apply E|contradiction]|]. now left.
      * split; [intros [H|H]; [now apply E|contradiction]|]. right. exists v. split; reflexivity.
Qed.

Lemma unindented_split : forall l, exists b, l = b ++ unindented l /\ Forall (fun c => blankc c = true) b.
Proof.
  induction l as [|c l (b & E & F)]; [exists []; split; [reflexivity|constructor]|]. cbn [unindented].
  change (N.eqb c 32 || N.eqb c 9) with (blankc c). destruct (blankc c) eqn:B.
  - exists (c :: b). split; [cbn [app]; now f_equal|now constructor].
  - exists []. split; [reflexivity|constructor].
Qed.

Lemma same_lines_near : forall s s', same_lines s s' -> exists b b' u u', s = b ++ u /\ s' = b' ++ u' /\
  Forall (fun c => blankc c = true) b /\ Forall (fun c => blankc c = true) b' /\ near u u'.
Proof.
  intros s s' H. unfold same_lines in H.
  destruct (lines_cons s) as (l & ls & E). destruct (lines_cons s') as (l' & ls' & E').
  rewrite E, E' in H. cbn [map] in H. injection H as Hl Hs.
  destruct (lines_split _ _ _ E) as (N1 & C). destruct (lines_split _ _ _ E') as (N1' & C').
  destruct (unindented_split l) as (b & El & Fb). destruct (unindented_split l') as (b' & El' & Fb').
  exists b, b'. rewrite <- Hl in El'.
  assert (N2 : ~ In 10%N (unindented l)) by (intros X; apply N1; rewrite El; apply in_or_app; now right).
  destruct C as [[-> ->]|(v & -> & ->)]; destruct C' as [[-> ->]|(v' & -> & ->)].
  - exists (unindented l), (unindented l). repeat split; auto. now constructor.
  - cbn [map] in Hs. destruct (lines_cons v') as (? & ? & X). rewrite X in Hs. discriminate Hs.
  - cbn [map] in Hs. destruct (lines_cons v) as (? & ? & X). rewrite X in Hs. discriminate Hs.
  - exists (unindented l ++ 10%N :: v), (unindented l ++ 10%N :: v'). rewrite !app_assoc, <- El, <- El'.
    repeat split; auto. now constructor.
Qed.

Lemma near_gap_char : forall u u', near u u' -> gap_char u = gap_char u'.
Proof.
  intros u u' [l Hl|l v v' Hl H]; [reflexivity|]. destruct l as [|c [|d l]]; reflexivity.
Qed.

Lemma near_skip : forall u u', near u u' -> near (skipgap u) (skipgap u').
Proof.
  assert (H : forall n u u', length u <= n -> near u u' -> near (skipgap u) (skipgap u')).
  { induction n as [n IH] using (well_founded_induction Wf_nat.lt_wf). intros u u' Hn Hu.
    assert (Hv : forall v v', length v < n -> same_lines v v' -> near (skipgap v) (skipgap v')).
    { intros v v' Hv S. destruct (same_lines_near v v' S) as (b & b' & w & w' & -> & -> & Fb & Fb' & W).
      rewrite !skip_blanks by assumption. apply (IH (length w)); auto. rewrite app_length in Hv. lia. }
    destruct Hu as [l Hl|l v v' Hl S].
    { assert (X : ~ In 10%N (skipgap l)); [|now constructor].
      clear Hn Hv IH. assert (Y : forall m l, length l <= m -> ~ In 10%N l -> ~ In 10%N (skipgap l)).
      { induction m as [|m IHm]; intros [|c l0] Hm H0; cbn [length] in Hm; try (cbn; tauto || lia). cbn [skipgap].
        destruct (_ || _); [apply IHm; [lia|]; intros X; apply H0; now right|].
        destruct (N.eqb c 13); [|exact H0]. destruct l0 as [|d l1]; [exact H0|].
        destruct (N.eqb d 10); [|exact H0]. apply IHm; [cbn [length] in Hm; lia|]. intros X; apply H0; right; now right. }
      now apply (Y (length l)). }
    rewrite app_length in Hn. cbn [length] in Hn.
    destruct l as [|c l]; cbn [app skipgap].
    { change (blankc 10 || N.eqb 10 10) with true. cbn iota. apply Hv; [lia|exact S]. }
    assert (Nl : ~ In 10%N l) by (intros X; apply Hl; now right).
    destruct (blankc c) eqn:B; cbn [orb].
    { apply (IH (length (l ++ 10%N :: v))); [rewrite app_length; cbn [length] in *; lia|reflexivity|now constructor]. }
    destruct (N.eqb c 10) eqn:E; [apply N.eqb_eq in E; subst c; exfalso; apply Hl; now left|].
    destruct (N.eqb c 13) eqn:E2; [|now apply (near_line (c :: l))].
    destruct l as [|d l]; cbn [app].
    - change (N.eqb 10 10) with true. cbn iota. apply Hv; [cbn [length] in *; lia|exact S].
    - destruct (N.eqb d 10) eqn:E3; [apply N.eqb_eq in E3; subst d; exfalso; apply Nl; now left|].
      now apply (near_line (c :: d :: l)). }
  intros u u' Hu. now apply (H (length u)).
Qed.

Lemma not_in_skipn : forall n l, ~ In 10%N l -> ~ In 10%N (skipn n l).
Proof. intros n l H X. apply H. rewrite <- (firstn_skipn n l). apply in_or_app. now right. Qed.

Lemma near_tokens : forall u u' off off' ts ts', near u u' -> lexed off u ts -> lexed off' u' ts' -> same_but_blanks ts ts'.
Proof.
  assert (H : forall m u u' off off' ts ts', length u <= m -> near u u' -> lexed off u ts -> lexed off' u' ts' -> same_but_blanks ts ts').
  { induction m as [m IH] using (well_founded_induction Wf_nat.lt_wf). intros u u' off off' ts ts' Hm Hu HL HL'.
    destruct (gap_split _ _ _ HL) as (g & r & o & -> & Fg & Hr & Hg).
    destruct (gap_split _ _ _ HL') as (g' & r' & o' & -> & Fg' & Hr' & Hg').
    rewrite <- (near_gap_char _ _ Hu), <- Hg in Hg'. symmetry in Hg'.
    pose proof (near_skip _ _ Hu) as Hz. pose proof (skip_gap_char u) as Gz. pose proof (skip_length u) as Lz.
    revert Hr Hr' Hz Gz Lz. generalize (skipgap u') as z'. generalize (skipgap u) as z. intros z z' Hr Hr' Hz Gz Lz.
    destruct Hr as [o|o z n k t rest Nz Ez Bz Et Hrest].
    - inversion Hz as [l Hl E1 E2|l v v' Hl S E1 E2]; subst; [|destruct l; discriminate E1].
      inversion Hr'; subst; [|contradiction]. rewrite !app_nil_r. now constructor.
    - destruct Hr' as [o'|o' z' n' k' t' rest' Nz' Ez' Bz' Et' Hrest'].
      { inversion Hz as [l Hl E1 E2|l v v' Hl S E1 E2]; subst; [contradiction|destruct l; discriminate E2]. }
      assert (Hk : is_trivia k = false) by (eapply gap_none; eauto).
      assert (C : n = n' /\ k = k' /\ firstn n z = firstn n z' /\ near (skipn n z) (skipn n z')).
      { destruct Hz as [l Hl|l v v' Hl S].
        - rewrite Ez in Ez'. injection Ez' as <- <-. repeat split; auto. constructor. now apply not_in_skipn.
        - assert (Hl1 : l <> []) by (intros ->; discriminate Gz).
          assert (Hl2 : l <> [13%N]) by (intros ->; discriminate Gz).
          destruct (one_local l v v' Hl1 Hl2 Hl) as [E L]. rewrite Ez, Ez' in E. injection E as <- <-. rewrite Ez in L. cbn [fst] in L.
          rewrite !firstn_app, !skipn_app. replace (n - length l) with 0 by lia. cbn [firstn skipn].
          repeat split; auto. constructor; [now apply not_in_skipn|exact S]. }
      destruct C as (<- & <- & Ef & Hn). subst t t'. rewrite <- Ef in *.
      apply SB_tok; auto; [split; reflexivity|].
      apply (IH (length (skipn n z))) with (4 := Hrest) (5 := Hrest'); auto.
      rewrite skipn_length. lia. }
  intros u u' off off' ts ts' Hu HL HL'. now apply (H (length u) u u' off off').
Qed.

(** The tokens of texts with the same lines: white space, then the same but for blanks. *)
Theorem same_lines_tokens : forall s s', same_lines s s' ->
  exists g g' r r', lex s = g ++ r /\ lex s' = g' ++ r' /\ Forall blank g /\ Forall blank g' /\
    drop_trivia r = r /\ drop_trivia r' = r' /\ same_but_blanks r r'.
Proof.
  intros s s' H. destruct (same_lines_near s s' H) as (b & b' & u & u' & -> & -> & Fb & Fb' & Hu).
  destruct (gap_split _ _ _ (lex_lexed (b ++ u))) as (g & r & o & E & Fg & Hr & _).
  destruct (gap_split _ _ _ (lex_lexed (b' ++ u'))) as (g' & r' & o' & E' & Fg' & Hr' & _).
  exists g, g', r, r'. rewrite E, E'.
  assert (X : forall off z q, lexed off (skipgap z) q -> drop_trivia q = q).
  { intros off z q Hq. pose proof (skip_gap_char z) as G. destruct Hq as [|? ? n k t rest Nz Ez Bz Et Hrest]; [reflexivity|].
    cbn [drop_trivia tk_kind]. now rewrite (gap_none _ _ _ Ez Bz G). }
  rewrite !skip_blanks in * by assumption.
  repeat split; auto; try (eapply X; rewrite skip_blanks by eassumption; eassumption); try (eapply X; eassumption).
  eapply near_tokens; [apply near_skip, Hu|exact Hr|exact Hr'].
Qed.
