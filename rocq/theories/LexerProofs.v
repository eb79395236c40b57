(** Proofs about the lexer model (Lexer.v, Regex.v). The property theorems are in
    PropLexer.v. *)
From Coq Require Import NArith String Bool Lia Arith List.
Import ListNotations.
From Verif Require Import Text Kind Regex Lexer.
Local Open Scope list_scope.
Local Notation length := List.length (only parsing).

(** * Text *)

Lemma text_eqb_eq : forall a b, text_eqb a b = true <-> a = b.
Proof.
  induction a as [|x a IH]; destruct b as [|y b]; cbn [text_eqb]; split; intros H;
    try congruence.
  - apply andb_true_iff in H as [H1 H2]. apply N.eqb_eq in H1. apply IH in H2. congruence.
  - injection H as -> ->. rewrite N.eqb_refl. cbn. now apply IH.
Qed.

Lemma starts_with_iff : forall p s, starts_with p s = true <-> exists r, s = p ++ r.
Proof.
  induction p as [|x p IH]; intros s; cbn [starts_with].
  - split; [intros _; exists s|]; reflexivity.
  - destruct s as [|y s]; split; intros H; try congruence.
    + destruct H as [r H]; discriminate.
    + apply andb_true_iff in H as [H1 H2]. apply N.eqb_eq in H1. apply IH in H2 as [r ->].
      subst. eexists; reflexivity.
    + destruct H as [r H]. injection H as -> ->. rewrite N.eqb_refl. cbn. apply IH. eauto.
Qed.

Lemma blen_app : forall a b, blen (a ++ b) = blen a + blen b.
Proof. induction a as [|c a IH]; intros b; cbn [blen app]; [lia|]. rewrite IH. lia. Qed.

Lemma utf8_len_pos : forall c, 1 <= utf8_len c.
Proof.
  intros c. unfold utf8_len.
  destruct (c <? 128)%N, (c <? 2048)%N, (c <? 65536)%N; lia.
Qed.

Lemma blen_zero : forall a, blen a = 0 -> a = [].
Proof.
  destruct a as [|c a]; cbn [blen]; intros H; [reflexivity|].
  pose proof (utf8_len_pos c); lia.
Qed.

(** * Kinds *)

Lemma kind_idx_nth : forall k, nth_error all_kinds (N.to_nat (kind_idx k)) = Some k.
Proof. intros k; destruct k; vm_compute; reflexivity. Qed.

Lemma kind_eqb_eq : forall a b, kind_eqb a b = true <-> a = b.
Proof.
  intros a b. unfold kind_eqb. rewrite N.eqb_eq. split; [|intros ->; reflexivity].
  intros H. pose proof (kind_idx_nth a) as Ha. pose proof (kind_idx_nth b) as Hb.
  rewrite H, Hb in Ha. now injection Ha.
Qed.

Lemma kind_eqb_refl : forall a, kind_eqb a a = true.
Proof. intros a. now apply kind_eqb_eq. Qed.

Lemma kind_eqb_neq : forall a b, kind_eqb a b = false <-> a <> b.
Proof.
  intros a b. split.
  - intros H E. apply kind_eqb_eq in E. congruence.
  - intros H. destruct (kind_eqb a b) eqn:E; [|reflexivity]. now apply kind_eqb_eq in E.
Qed.

Lemma kind_eq_dec : forall a b : kind, {a = b} + {a <> b}.
Proof.
  intros a b. destruct (kind_eqb a b) eqn:E.
  - left. now apply kind_eqb_eq.
  - right. now apply kind_eqb_neq.
Defined.

(** * Regular expressions *)

Lemma rmatch_empty : forall s, ~ rmatch REmpty s.
Proof. intros s H; inversion H. Qed.

Lemma nullable_spec : forall r, nullable r = true <-> rmatch r [].
Proof.
  induction r; cbn [nullable]; split; intros H; try discriminate; try (now inversion H);
    try (now constructor).
  - apply andb_true_iff in H as [Ha Hb].
    apply (MSeq _ _ [] []); [now apply IHr1 | now apply IHr2].
  - inversion H as [| | ? ? s t Ha Hb E1 E2| | | |]; subst.
    apply app_eq_nil in E2 as [-> ->]. apply andb_true_iff; split;
      [now apply IHr1 | now apply IHr2].
  - apply orb_true_iff in H as [H|H]; [apply MAltL; now apply IHr1
      | apply MAltR; now apply IHr2].
  - apply orb_true_iff. inversion H; subst; [left; now apply IHr1 | right; now apply IHr2].
Qed.

Lemma sseq_spec : forall a b s, rmatch (sseq a b) s <-> rmatch (RSeq a b) s.
Proof.
  assert (HR : forall a b s, rmatch (RSeq a b) s <->
                exists u v, s = u ++ v /\ rmatch a u /\ rmatch b v).
  { intros a b s; split.
    - intros H; inversion H; subst; eauto.
    - intros (u & v & -> & Ha & Hb); now constructor. }
  assert (Hb : forall a b s, rmatch (match b with REmpty => REmpty | REps => a | _ => RSeq a b end) s
                  <-> rmatch (RSeq a b) s).
  { intros a b s. destruct b; try reflexivity; rewrite HR.
    - split; [intros H; now inversion H|]. intros (u & v & _ & _ & H); now inversion H.
    - split.
      + intros H. exists s, []. rewrite app_nil_r. repeat split; auto; constructor.
      + intros (u & v & -> & H & H2). inversion H2; subst. now rewrite app_nil_r. }
  intros a b s. destruct a; cbn [sseq]; try apply Hb; rewrite HR.
  - split; [intros H; now inversion H|]. intros (u & v & _ & H & _); now inversion H.
  - split.
    + intros H. exists [], s. repeat split; auto; constructor.
    + intros (u & v & -> & H2 & H). inversion H2; subst. exact H.
Qed.

Lemma salt_spec : forall a b s, rmatch (salt a b) s <-> rmatch a s \/ rmatch b s.
Proof.
  assert (HR : forall a b s, rmatch (RAlt a b) s <-> rmatch a s \/ rmatch b s).
  { intros a b s; split; [intros H; inversion H; auto | intros [H|H]; now constructor]. }
  intros a b s. pose proof (rmatch_empty s) as HE.
  destruct a; cbn [salt]; try tauto;
    destruct b; rewrite ?HR; tauto.
Qed.

Lemma rseq_inv : forall a b s, rmatch (RSeq a b) s ->
  exists u v, s = u ++ v /\ rmatch a u /\ rmatch b v.
Proof. intros a b s H; inversion H; subst; eauto. Qed.

Lemma rstar_cons : forall a c s, rmatch (RStar a) (c :: s) ->
  exists u v, s = u ++ v /\ rmatch a (c :: u) /\ rmatch (RStar a) v.
Proof.
  intros a c s H. remember (RStar a) as r eqn:Er. remember (c :: s) as w eqn:Ew.
  revert c s Ew. induction H as [| | | | | |a' u v Ha IHa Hs IHs]; intros c0 s0 Ew;
    try discriminate.
  injection Er as ->. destruct u as [|d u].
  - cbn in Ew. now apply IHs.
  - cbn in Ew. injection Ew as -> <-. eauto.
Qed.

Lemma deriv_spec : forall r c s, rmatch (deriv c r) s <-> rmatch r (c :: s).
Proof.
  induction r as [| |cl|a IHa b IHb|a IHa b IHb|a IHa]; intros c s; cbn [deriv].
  - split; intros H; inversion H.
  - split; intros H; inversion H.
  - destruct (in_class cl c) eqn:E; split; intros H; inversion H; subst; try congruence.
    constructor; auto. constructor.
  - assert (Hs : rmatch (sseq (deriv c a) b) s <->
                 exists u v, s = u ++ v /\ rmatch a (c :: u) /\ rmatch b v).
    { rewrite sseq_spec. split.
      - intros H; apply rseq_inv in H as (u & v & -> & H1 & H2). apply IHa in H1. eauto.
      - intros (u & v & -> & H1 & H2). constructor; [now apply IHa|auto]. }
    assert (Hr : rmatch (RSeq a b) (c :: s) <->
                 (exists u v, s = u ++ v /\ rmatch a (c :: u) /\ rmatch b v)
                 \/ (rmatch a [] /\ rmatch b (c :: s))).
    { split.
      - intros H; apply rseq_inv in H as (u & v & E & H1 & H2). destruct u as [|d u].
        + cbn in E; subst v. right; auto.
        + cbn in E. injection E as <- ->. left; eauto.
      - intros [(u & v & -> & H1 & H2)|[H1 H2]].
        + change (c :: u ++ v) with ((c :: u) ++ v). now constructor.
        + change (c :: s) with ([] ++ (c :: s)). now constructor. }
    destruct (nullable a) eqn:En.
    + rewrite salt_spec, Hs, IHb, Hr. apply nullable_spec in En. tauto.
    + rewrite Hs, Hr. split; [tauto|]. intros [H|[H _]]; [exact H|].
      apply nullable_spec in H. congruence.
  - rewrite salt_spec, IHa, IHb. split.
    + intros [H|H]; now constructor.
    + intros H; inversion H; auto.
  - rewrite sseq_spec. split.
    + intros H; apply rseq_inv in H as (u & v & -> & H1 & H2). apply IHa in H1.
      change (c :: u ++ v) with ((c :: u) ++ v). now constructor.
    + intros H. apply rstar_cons in H as (u & v & -> & H1 & H2).
      constructor; [now apply IHa | auto].
Qed.

(** [m] is the length of the longest prefix of [s] that satisfies [P]. *)
Definition longest (P : text -> Prop) (s : text) (m : nat) : Prop :=
  m <= length s /\ P (firstn m s) /\
  forall m', m' <= length s -> P (firstn m' s) -> m' <= m.
Definition no_prefix (P : text -> Prop) (s : text) : Prop :=
  forall m, m <= length s -> ~ P (firstn m s).

Lemma rlong_go_spec : forall s r n best,
  (no_prefix (rmatch r) s /\ rlong_go r s n best = best) \/
  (exists m, longest (rmatch r) s m /\ rlong_go r s n best = Some (n + m)).
Proof.
  induction s as [|c s IH]; intros r n best; cbn [rlong_go].
  - destruct (nullable r) eqn:En.
    + right. exists 0. apply nullable_spec in En. repeat split; cbn; auto; try (f_equal; lia); lia.
    + left. split; [|reflexivity]. intros m Hm H. cbn in Hm. replace m with 0 in H by lia.
      apply nullable_spec in H. congruence.
  - assert (Hd : forall m, rmatch (deriv c r) (firstn m s) <-> rmatch r (firstn (S m) (c :: s)))
      by (intros m; apply deriv_spec).
    assert (Hgo : forall best', (no_prefix (rmatch (deriv c r)) s /\
                     (if is_rempty (deriv c r) then best' else rlong_go (deriv c r) s (S n) best') = best')
              \/ (exists m, longest (rmatch (deriv c r)) s m /\
                     (if is_rempty (deriv c r) then best' else rlong_go (deriv c r) s (S n) best')
                     = Some (S n + m))).
    { intros best'. destruct (is_rempty (deriv c r)) eqn:Er.
      - left; split; [|reflexivity]. intros m _ H. destruct (deriv c r); try discriminate.
        now apply rmatch_empty in H.
      - apply IH. }
    specialize (Hgo (if nullable r then Some n else best)).
    destruct Hgo as [[Hno Hgo]|(m & (Hm & Hr & Hmax) & Hgo)].
    + rewrite Hgo. destruct (nullable r) eqn:En.
      * right. exists 0. apply nullable_spec in En. split; [|f_equal; lia].
        split; [cbn; lia|]. split; [exact En|].
        intros [|m'] Hm' H'; [lia|]. exfalso. apply (Hno m'); [cbn in Hm'; lia|].
        now apply Hd.
      * left. split; [|reflexivity]. intros [|m'] Hm' H'.
        -- apply nullable_spec in H'. congruence.
        -- apply (Hno m'); [cbn in Hm'; lia|]. now apply Hd.
    + right. exists (S m). rewrite Hgo. repeat split.
      * cbn; lia.
      * now apply Hd.
      * intros [|m'] Hm' H'; [lia|]. apply le_n_S, Hmax; [cbn in Hm'; lia|]. now apply Hd.
      * f_equal; lia.
Qed.

(** * Patterns *)

(** The texts a pattern describes, independently of the matching engine. *)
Definition pat_matches (p : pattern) (w : text) : Prop :=
  match p with
  | PLit l => w = txt l
  | PLitCI l => map to_lower_ascii w = map to_lower_ascii (txt l)
  | PRe r => rmatch r w
  end.

Lemma length_txt : forall l, length (txt l) = String.length l.
Proof. induction l as [|a l IH]; cbn; auto. Qed.

Lemma starts_with_ci_iff : forall p s, starts_with_ci p s = true <->
  length p <= length s /\ map to_lower_ascii (firstn (length p) s) = map to_lower_ascii p.
Proof.
  induction p as [|x p IH]; intros s; cbn [starts_with_ci].
  - cbn. split; auto. intros; split; [lia|reflexivity].
  - destruct s as [|y s]; cbn [length firstn map].
    + split; [discriminate|]. intros [H _]; lia.
    + rewrite andb_true_iff, N.eqb_eq, IH. split.
      * intros [E [H1 H2]]. split; [lia|]. now rewrite E, H2.
      * intros [H1 H2]. injection H2 as E H2. repeat split; auto. lia.
Qed.

Lemma firstn_app_exact : forall (A : Type) (a b : list A), firstn (length a) (a ++ b) = a.
Proof. intros A a b. induction a; cbn; [reflexivity | now f_equal]. Qed.

Lemma pat_len_spec : forall p s,
  (pat_len p s = None /\ no_prefix (pat_matches p) s) \/
  (exists m, pat_len p s = Some m /\ longest (pat_matches p) s m).
Proof.
  intros [l|l|r] s; cbn [pat_len pat_matches].
  - destruct (starts_with (txt l) s) eqn:E.
    + right. exists (String.length l). split; [reflexivity|].
      apply starts_with_iff in E as [r ->]. rewrite <- length_txt. repeat split.
      * rewrite app_length; lia.
      * apply firstn_app_exact.
      * intros m' Hm' H'. rewrite <- H', firstn_length. lia.
    + left. split; [reflexivity|]. intros m Hm H.
      assert (starts_with (txt l) s = true); [|congruence].
      apply starts_with_iff. exists (skipn m s). rewrite <- H. symmetry. apply firstn_skipn.
  - destruct (starts_with_ci (txt l) s) eqn:E.
    + right. exists (String.length l). split; [reflexivity|].
      apply starts_with_ci_iff in E as [H1 H2]. rewrite <- length_txt. repeat split; auto.
      intros m' Hm' H'. apply (f_equal (@List.length N)) in H'.
      rewrite !map_length, firstn_length in H'. lia.
    + left. split; [reflexivity|]. intros m Hm H.
      assert (starts_with_ci (txt l) s = true); [|congruence].
      apply starts_with_ci_iff. assert (m = length (txt l)) as <-.
      { apply (f_equal (@List.length N)) in H. rewrite !map_length, firstn_length in H. lia. }
      auto.
  - unfold rlong. destruct (rlong_go_spec s r 0 None) as [[H1 H2]|(m & H1 & H2)]; eauto.
Qed.

Lemma pat_len_le : forall p s m, pat_len p s = Some m -> m <= length s.
Proof.
  intros p s m H. destruct (pat_len_spec p s) as [[E _]|(m' & E & H1 & _)]; congruence.
Qed.

(** * The table *)

Lemma best_match_none : forall tbl s best, best_match tbl s best = None ->
  best = None /\ forall p k, In (p, k) tbl -> pat_len p s = None.
Proof.
  induction tbl as [|[p k] tbl IH]; intros s best; cbn [best_match].
  - intros ->; split; [reflexivity|]; intros ? ? [].
  - intros H. apply IH in H as [H1 H2].
    destruct (pat_len p s) as [n|] eqn:E.
    + destruct best as [[m k']|]; [|discriminate]. destruct (Nat.ltb m n); discriminate.
    + split; [assumption|]. intros p' k' [H|H]; [congruence | eauto].
Qed.

(** What the winner of the table satisfies, given the current best. *)
Lemma best_match_some : forall tbl s best n k, best_match tbl s best = Some (n, k) ->
  (best = Some (n, k) /\ forall p k' m, In (p, k') tbl -> pat_len p s = Some m -> m <= n) \/
  (exists t1 p t2, tbl = t1 ++ (p, k) :: t2 /\ pat_len p s = Some n /\
     (forall p' k' m, In (p', k') t1 -> pat_len p' s = Some m -> m < n) /\
     (forall m k', best = Some (m, k') -> m < n) /\
     (forall p' k' m, In (p', k') t2 -> pat_len p' s = Some m -> m <= n)).
Proof.
  induction tbl as [|[p k0] tbl IH]; intros s best n k H; cbn [best_match] in H.
  - left; split; [assumption|]; intros ? ? ? [].
  - apply IH in H as [[Hb Hle]|(t1 & p' & t2 & -> & Hp & Hlt & Hbest & Hle)]; clear IH.
    + destruct (pat_len p s) as [m|] eqn:E.
      * destruct best as [[m' k']|].
        -- destruct (Nat.ltb m' m) eqn:Elt.
           ++ injection Hb as -> ->. right. exists [], p, tbl. apply Nat.ltb_lt in Elt.
              repeat split; auto. { intros ? ? ? []. }
              intros m0 k1 [= -> ->]. assumption.
           ++ injection Hb as -> ->. apply Nat.ltb_ge in Elt. left; split; [reflexivity|].
              intros p0 k1 m0 [[= -> ->]|Hin] Hp; [rewrite E in Hp; injection Hp as ->; assumption|].
              eauto.
        -- injection Hb as -> ->. right. exists [], p, tbl. repeat split; auto.
           { intros ? ? ? []. } discriminate.
      * left; split; [assumption|]. intros p0 k1 m0 [[= -> ->]|Hin] Hp; [congruence|eauto].
    + right. exists ((p, k0) :: t1), p', t2. repeat split; auto.
      * intros p0 k1 m0 [[= -> ->]|Hin] Hp0; [|eauto].
        rewrite Hp0 in Hbest. destruct best as [[m' k']|].
        -- destruct (Nat.ltb m' m0) eqn:Elt.
           ++ now apply (Hbest m0 k1).
           ++ apply Nat.ltb_ge in Elt. specialize (Hbest m' k' eq_refl). lia.
        -- now apply (Hbest m0 k1).
      * intros m k' ->. destruct (pat_len p s) as [m0|].
        -- destruct (Nat.ltb m m0) eqn:Elt.
           ++ apply Nat.ltb_lt in Elt. specialize (Hbest m0 k0 eq_refl). lia.
           ++ now apply (Hbest m k').
        -- now apply (Hbest m k').
Qed.

(** No pattern of the table matches the empty text. *)
Definition pat_nonempty (p : pattern) : bool :=
  match p with
  | PLit l | PLitCI l => match l with EmptyString => false | _ => true end
  | PRe r => negb (nullable r)
  end.
Lemma table_nonempty : forallb (fun e => pat_nonempty (fst e)) lex_table = true.
Proof. vm_compute. reflexivity. Qed.

Lemma pat_len_pos : forall p k s m, In (p, k) lex_table -> pat_len p s = Some m -> 1 <= m.
Proof.
  intros p k s m Hin Hl. pose proof table_nonempty as Ht.
  rewrite forallb_forall in Ht. specialize (Ht _ Hin). cbn [fst] in Ht.
  destruct m; [|lia]. exfalso.
  destruct (pat_len_spec p s) as [[E _]|(m' & E & _ & Hm & _)]; [congruence|].
  rewrite Hl in E; injection E as <-. cbn [firstn] in Hm.
  destruct p as [l|l|r]; cbn [pat_nonempty pat_matches] in *.
  - destruct l; discriminate.
  - destruct l; discriminate.
  - apply nullable_spec in Hm. now rewrite Hm in Ht.
Qed.

(** [e] is the winning entry for [s] and matches [n] chars: nothing in the table matches
    more chars, and no earlier entry matches as many. *)
Definition winner (s : text) (p : pattern) (k : kind) (n : nat) : Prop :=
  exists t1 t2, lex_table = t1 ++ (p, k) :: t2 /\
    longest (pat_matches p) s n /\
    (forall p' k' m, In (p', k') lex_table -> m <= length s ->
       pat_matches p' (firstn m s) -> m <= n) /\
    (forall p' k' m, In (p', k') t1 -> m <= length s ->
       pat_matches p' (firstn m s) -> m < n).

Lemma pat_len_upper : forall p s m, m <= length s -> pat_matches p (firstn m s) ->
  exists m', pat_len p s = Some m' /\ m <= m'.
Proof.
  intros p s m Hm H. destruct (pat_len_spec p s) as [[_ Hno]|(m' & E & _ & _ & Hmax)].
  - exfalso. eapply Hno; eauto.
  - eauto.
Qed.

Lemma best_match_table : forall s,
  (best_match lex_table s None = None /\
     forall p k, In (p, k) lex_table -> no_prefix (pat_matches p) s) \/
  (exists p k n, best_match lex_table s None = Some (n, k) /\ winner s p k n /\ 1 <= n <= length s).
Proof.
  intros s. destruct (best_match lex_table s None) as [[n k]|] eqn:E.
  - right. apply best_match_some in E as [[E _]|(t1 & p & t2 & Et & Hp & H1 & _ & H2)];
      [discriminate|].
    exists p, k, n. split; [reflexivity|].
    assert (Hin : In (p, k) lex_table) by (rewrite Et; apply in_elt).
    split; [|split; [eapply pat_len_pos; eauto | eapply pat_len_le; eauto]].
    exists t1, t2. split; [assumption|]. split; [|split].
    + destruct (pat_len_spec p s) as [[E _]|(m' & E & H)]; [congruence|].
      rewrite Hp in E; injection E as <-. exact H.
    + intros p' k' m Hin' Hm Hmt. destruct (pat_len_upper _ _ _ Hm Hmt) as (m' & E & Hle).
      rewrite Et in Hin'. apply in_app_or in Hin' as [Hi|[[= <- <-]|Hi]].
      * specialize (H1 _ _ _ Hi E); lia.
      * rewrite Hp in E; injection E as <-; lia.
      * specialize (H2 _ _ _ Hi E); lia.
    + intros p' k' m Hin' Hm Hmt. destruct (pat_len_upper _ _ _ Hm Hmt) as (m' & E & Hle).
      specialize (H1 _ _ _ Hin' E). lia.
  - left. split; [reflexivity|]. apply best_match_none in E as [_ E].
    intros p k Hin m Hm H. destruct (pat_len_upper _ _ _ Hm H) as (m' & E' & _).
    rewrite (E _ _ Hin) in E'. discriminate.
Qed.

Lemma cb_suffix_le : forall suf a b rest, fst (cb_suffix suf a b rest) <= length rest.
Proof.
  intros suf a b rest. unfold cb_suffix. destruct (starts_with (txt suf) rest) eqn:E.
  - apply starts_with_iff in E as [r ->].
    destruct (boundary_after _); cbn [fst]; [|lia].
    rewrite app_length, length_txt. lia.
  - cbn; lia.
Qed.

(** [lex_one] with the kind test as a boolean. *)
Lemma lex_one_eq : forall s, lex_one s =
  match best_match lex_table s None with
  | Some (n, k) =>
    if kind_eqb k TK_NOT then
      let (b, k') := cb_suffix " in" TK_NOT TK_NOT_IN (skipn n s) in (n + b, k')
    else if kind_eqb k TK_IS then
      let (b, k') := cb_suffix " not" TK_IS TK_IS_NOT (skipn n s) in (n + b, k')
    else (n, k)
  | None => (1, TK_UNKNOWN)
  end.
Proof.
  intros s. unfold lex_one, cb_not, cb_is. generalize (best_match lex_table s None).
  intros [[n k]|]; [|reflexivity].
  generalize (cb_suffix " in" TK_NOT TK_NOT_IN (skipn n s)).
  generalize (cb_suffix " not" TK_IS TK_IS_NOT (skipn n s)).
  intros x y. destruct k; reflexivity.
Qed.

Lemma lex_one_bounds : forall c s, 1 <= fst (lex_one (c :: s)) <= length (c :: s).
Proof.
  intros c s. rewrite lex_one_eq.
  destruct (best_match_table (c :: s)) as [[-> _]|(p & k & n & -> & _ & Hn)].
  - cbn; lia.
  - assert (Hsk : length (skipn n (c :: s)) = length (c :: s) - n) by apply skipn_length.
    destruct (kind_eqb k TK_NOT); [|destruct (kind_eqb k TK_IS); [|cbn [fst]; lia]].
    + pose proof (cb_suffix_le " in" TK_NOT TK_NOT_IN (skipn n (c :: s))) as H.
      destruct (cb_suffix _ _ _ _) as [b k']. cbn [fst] in *. lia.
    + pose proof (cb_suffix_le " not" TK_IS TK_IS_NOT (skipn n (c :: s))) as H.
      destruct (cb_suffix _ _ _ _) as [b k']. cbn [fst] in *. lia.
Qed.

(** * The token sequence *)

(** Each token is what [lex_one] says about the text that starts with it. *)
Inductive lexed : nat -> text -> list token -> Prop :=
| lexed_nil off : lexed off [] []
| lexed_cons off s n k t rest :
    s <> [] -> lex_one s = (n, k) -> 1 <= n <= length s -> t = firstn n s ->
    lexed (off + blen t) (skipn n s) rest ->
    lexed off s (mkTok k t off (off + blen t) :: rest).

Lemma lex_go_lexed : forall fuel off s, length s <= fuel -> lexed off s (lex_go fuel off s).
Proof.
  induction fuel as [|fuel IH]; intros off s Hf.
  - destruct s; [constructor | cbn in Hf; lia].
  - cbn [lex_go]. destruct s as [|c s]; [constructor|].
    pose proof (lex_one_bounds c s) as Hb.
    destruct (lex_one (c :: s)) as [n k] eqn:E. cbn [fst] in Hb.
    econstructor; eauto; [discriminate|]. apply IH.
    rewrite skipn_length. cbn [List.length] in *. lia.
Qed.

Lemma lex_lexed : forall s, lexed 0 s (lex s).
Proof. intros s. apply lex_go_lexed. reflexivity. Qed.

(** Adjacent tokens from byte offset [a] to byte offset [b]. *)
Inductive chain : nat -> list token -> nat -> Prop :=
| chain_nil a : chain a [] a
| chain_cons a t ts b :
    tk_start t = a -> tk_end t = a + blen (tk_text t) -> tk_text t <> [] ->
    chain (tk_end t) ts b -> chain a (t :: ts) b.

Lemma lexed_text : forall off s ts, lexed off s ts -> concat (map tk_text ts) = s.
Proof.
  induction 1; cbn [map concat tk_text]; [reflexivity|].
  rewrite IHlexed. subst t. apply firstn_skipn.
Qed.

Lemma lexed_chain : forall off s ts, lexed off s ts -> chain off ts (off + blen s).
Proof.
  induction 1 as [off|off s n k t rest Hs Hl Hn Ht Hr IH].
  - cbn. rewrite Nat.add_0_r. constructor.
  - constructor; cbn; auto.
    + subst t. destruct s; [congruence|]. destruct n; [lia|]. discriminate.
    + replace (off + blen s) with (off + blen t + blen (skipn n s)); [assumption|].
      rewrite <- (firstn_skipn n s) at 2. rewrite blen_app. subst t. lia.
Qed.

Lemma lexed_split : forall off s pre t post, lexed off s (pre ++ t :: post) ->
  exists s', s' = concat (map tk_text (t :: post)) /\ s' <> [] /\
    lex_one s' = (length (tk_text t), tk_kind t) /\
    tk_text t = firstn (length (tk_text t)) s'.
Proof.
  intros off s pre. revert off s.
  induction pre as [|t0 pre IH]; intros off s t post H; inversion H as [|? ? n k t1 rest Hs Hl Hn Ht Hr]; subst.
  - exists s. apply lexed_text in H. cbn [app] in H.
    rewrite <- H at 1. split; [reflexivity|]. split; [assumption|].
    cbn [tk_text tk_kind]. rewrite firstn_length_le by lia. auto.
  - eapply IH; eauto.
Qed.

(** * Keywords and words *)

(** Chars that can continue an identifier. *)
Definition word_char (c : N) : bool := in_class cl_word c.

Lemma star_class : forall cl t, rmatch (RStar (RClass cl)) t <-> forallb (in_class cl) t = true.
Proof.
  intros cl. induction t as [|c t IH]; cbn [forallb].
  - split; [reflexivity | intros _; constructor].
  - rewrite andb_true_iff, <- IH. split.
    + intros H. apply rstar_cons in H as (u & v & -> & H1 & H2). inversion H1; subst. auto.
    + intros [H1 H2]. change (c :: t) with ([c] ++ t). constructor; [now constructor|assumption].
Qed.

Definition ident_head (h : text) : Prop :=
  (exists c, h = [c] /\ word_char c = true) \/
  (exists c d, h = [c; d] /\ word_char d = true).

Lemma cl_letter_word : forall c, in_class cl_letter c = true -> word_char c = true.
Proof.
  intros c H. unfold word_char, in_class, cl_letter, cl_word in *. cbn [existsb] in *.
  apply orb_true_iff in H as [->|H]; [reflexivity|].
  apply orb_true_iff in H as [->|H]; [|discriminate]. now rewrite orb_true_r.
Qed.

Lemma re_word_inv : forall u, rmatch re_word u ->
  exists h t, u = h ++ t /\ ident_head h /\ forallb word_char t = true.
Proof.
  intros u H. apply rseq_inv in H as (h & t & -> & Hh & Ht). exists h, t.
  apply star_class in Ht. split; [reflexivity|]. split; [|exact Ht].
  inversion Hh as [| | |? ? ? Ha|? ? ? Ha| |]; subst.
  - inversion Ha; subst. left. eexists; split; [reflexivity|]. now apply cl_letter_word.
  - inversion Ha as [| | |? ? ? Hb|? ? ? Hb| |]; subst.
    + apply rseq_inv in Hb as (a & b & -> & H1 & H2). inversion H1; subst. inversion H2; subst.
      right. eexists _, _. split; [reflexivity|]. now apply cl_letter_word.
    + inversion Hb as [|? ? Hc| | | | |]; subst. left. eexists; split; [reflexivity|].
      unfold in_class in Hc. cbn in Hc. rewrite orb_false_r in Hc. unfold in_range in Hc.
      apply andb_true_iff in Hc as [H1 H2]. apply N.leb_le in H1, H2.
      replace c with 95%N by lia. reflexivity.
Qed.

Lemma re_word_nonempty : forall w, rmatch re_word w -> w <> [].
Proof. intros w H ->. apply nullable_spec in H. vm_compute in H. discriminate. Qed.

(** An identifier can only be extended to a longer one by a word char. *)
Lemma word_ext : forall w c v, w <> [] -> rmatch re_word (w ++ c :: v) -> word_char c = true.
Proof.
  intros w c v Hw H. apply re_word_inv in H as (h & t & E & Hh & Ht).
  destruct w as [|x w]; [congruence|].
  assert (Hin : forall a, forallb word_char (a ++ c :: v) = true -> word_char c = true).
  { intros a Ha. rewrite forallb_app in Ha. apply andb_true_iff in Ha as [_ Ha].
    cbn in Ha. now apply andb_true_iff in Ha as [Ha _]. }
  destruct Hh as [(d & -> & _)|(d & e & -> & He)]; cbn in E.
  - injection E as <- <-. eauto.
  - destruct w as [|y w]; cbn in E.
    + injection E as <- <- <-. assumption.
    + injection E as <- <- <-. eauto.
Qed.

(** Chars of an identifier after the first two are word chars. *)
Lemma word_tail : forall x y w, rmatch re_word (x :: y :: w) -> forallb word_char w = true.
Proof.
  intros x y w H. apply re_word_inv in H as (h & t & E & Hh & Ht).
  destruct Hh as [(d & -> & _)|(d & e & -> & He)]; cbn in E.
  - injection E as <- <-. cbn in Ht. now apply andb_true_iff in Ht as [_ Ht].
  - now injection E as <- <- <-.
Qed.

(** ** Classification of the table *)

Definition is_re (p : pattern) : bool := match p with PRe _ => true | _ => false end.

(** All literals come before all regular expressions. *)
Fixpoint lits_first (tbl : list (pattern * kind)) : bool :=
  match tbl with
  | [] => true
  | (p, _) :: tbl' => if is_re p then forallb (fun e => is_re (fst e)) tbl' else lits_first tbl'
  end.
Lemma table_lits_first : lits_first lex_table = true.
Proof. vm_compute. reflexivity. Qed.

Lemma lits_first_after : forall t1 p k t2, lits_first (t1 ++ (p, k) :: t2) = true -> is_re p = true ->
  forall e, In e t2 -> is_re (fst e) = true.
Proof.
  induction t1 as [|[q kq] t1 IH]; intros p k t2 H Hp e He; cbn [lits_first app] in H.
  - rewrite Hp, forallb_forall in H. auto.
  - destruct (is_re q); [|eauto]. rewrite forallb_forall in H. apply H.
    apply in_or_app; right; right; assumption.
Qed.

Lemma table_re : forall r k, In (PRe r, k) lex_table ->
  In (r, k) [(re_ws, TK_WHITESPACE); (re_lb, TK_LINE_BREAK); (re_word, TK_WORD);
             (re_component, TK_TWIG_COMPONENT_NAME); (re_number, TK_NUMBER);
             (re_escape, TK_HTML_ESCAPE_CHARACTER)].
Proof.
  intros r k H.
  assert (H' : In (PRe r, k) (filter (fun e => is_re (fst e)) lex_table))
    by (apply filter_In; auto).
  vm_compute in H'.
  repeat (destruct H' as [H'|H']; [injection H' as <- <-; cbn; tauto|]). destruct H'.
Qed.

Lemma table_word : In (PRe re_word, TK_WORD) lex_table.
Proof. apply (nth_error_In lex_table 158). vm_compute. reflexivity. Qed.

(** The keywords that consist of several words. *)
Definition multi_words : list text :=
  map txt ["ignore missing"; "starts with"; "ends with"; "same as"; "divisible by"]%string.

(** The char at which the first non-word char of a text is, from position [i] on. *)
Definition ident_start (l : text) : bool :=
  match l with
  | c :: d :: _ => in_class cl_letter c || N.eqb c 95
                   || (in_class [(64,64);(35,35);(95,95);(36,36)]%N c && in_class cl_letter d)
  | [c] => in_class cl_letter c || N.eqb c 95
  | [] => false
  end.

Lemma ident_start_word : forall w v, rmatch re_word w -> ident_start (w ++ v) = true.
Proof.
  intros w v H. apply rseq_inv in H as (h & t & -> & Hh & _).
  assert (Hone : forall c r, in_class cl_letter c = true \/ c = 95%N -> ident_start (c :: r) = true).
  { intros c r [Hc| ->]; destruct r as [|d r]; cbn [ident_start]; rewrite ?Hc; reflexivity. }
  inversion Hh as [| | |? ? ? Ha|? ? ? Ha| |]; subst.
  - inversion Ha; subst. cbn [app]. apply Hone. auto.
  - inversion Ha as [| | |? ? ? Hb|? ? ? Hb| |]; subst.
    + apply rseq_inv in Hb as (a & b & -> & H1 & H2). inversion H1; subst. inversion H2; subst.
      cbn [app ident_start]. rewrite H0, H3. now rewrite orb_true_r.
    + inversion Hb as [|? ? Hc| | | | |]; subst. cbn [app]. apply Hone. right.
      unfold in_class in Hc. cbn in Hc. rewrite orb_false_r in Hc. unfold in_range in Hc.
      apply andb_true_iff in Hc as [H1 H2]. apply N.leb_le in H1, H2. lia.
Qed.

(** Every literal that starts like an identifier either consists of word chars after its
    first char, or is one of [multi_words]. *)
Definition lit_ok (p : pattern) : bool :=
  match p with
  | PLit l => negb (ident_start (txt l)) || forallb word_char (tl (txt l))
              || existsb (text_eqb (txt l)) multi_words
  | PLitCI l => forallb word_char (txt l)
  | PRe _ => true
  end.
Lemma table_lit_ok : forallb (fun e => lit_ok (fst e)) lex_table = true.
Proof. vm_compute. reflexivity. Qed.

Lemma lower_word_char : forall x y, to_lower_ascii x = to_lower_ascii y ->
  word_char y = true -> word_char x = true.
Proof.
  intros x y E Hy.
  assert (Hw : forall c, word_char c = true <->
             (97 <= c <= 122 \/ 65 <= c <= 90 \/ 48 <= c <= 57 \/ c = 95 \/ c = 45)%N).
  { intros c. unfold word_char, in_class, cl_word, in_range. cbn [existsb fst snd].
    rewrite !orb_true_iff, !andb_true_iff, !N.leb_le. intuition (try lia; try discriminate). }
  apply Hw in Hy. apply Hw. revert E. unfold to_lower_ascii, is_upper_ascii, in_range.
  destruct (N.leb_spec 65 x), (N.leb_spec x 90), (N.leb_spec 65 y), (N.leb_spec y 90);
    cbn [andb]; intros E; lia.
Qed.

(** Splitting a prefix longer than [w]. *)
Lemma firstn_past : forall (w rest : text) m, length w < m -> m <= length (w ++ rest) ->
  exists c v r', rest = c :: r' /\ firstn m (w ++ rest) = w ++ c :: v.
Proof.
  intros w rest m H1 H2. rewrite app_length in H2. destruct rest as [|c r']; [cbn in H2; lia|].
  exists c, (firstn (m - length w - 1) r'), r'. split; [reflexivity|].
  rewrite firstn_app, firstn_all2 by lia. f_equal.
  destruct (m - length w) as [|q] eqn:Eq; [lia|]. cbn [firstn Nat.sub]. now rewrite Nat.sub_0_r.
Qed.

Definition starts_non_word (rest : text) : Prop :=
  match rest with [] => True | c :: _ => word_char c = false end.

(** Which table entries can match a prefix of a text that starts with the identifier [w]:
    none matches more than [w], and the regular expressions other than [re_word] match
    nothing. *)
Lemma ident_prefix : forall w rest p k m,
  rmatch re_word w -> starts_non_word rest ->
  (forall l, In l multi_words -> ~ exists r, w ++ rest = l ++ r) ->
  (~ exists r, w ++ rest = txt "twig:" ++ r) ->
  In (p, k) lex_table -> m <= length (w ++ rest) ->
  pat_matches p (firstn m (w ++ rest)) ->
  m <= length w /\ (is_re p = true -> p = PRe re_word /\ k = TK_WORD).
Proof.
  intros w rest p k m Hw Hrest Hmulti Htwig Hin Hm Hp.
  pose proof (re_word_nonempty _ Hw) as Hne.
  assert (Hsplit : w ++ rest = firstn m (w ++ rest) ++ skipn m (w ++ rest))
    by (symmetry; apply firstn_skipn).
  destruct p as [l|l|r].
  - split; [|discriminate]. cbn [pat_matches] in Hp.
    destruct (Nat.le_gt_cases m (length w)) as [|Hgt]; [assumption|exfalso].
    pose proof table_lit_ok as Hok. rewrite forallb_forall in Hok. specialize (Hok _ Hin).
    cbn [fst lit_ok] in Hok. rewrite <- Hp in Hok.
    destruct (firstn_past _ _ _ Hgt Hm) as (c & v & r' & -> & E). rewrite E in Hok.
    cbn [starts_non_word] in Hrest.
    rewrite (ident_start_word _ _ Hw) in Hok. cbn [negb orb] in Hok.
    apply orb_true_iff in Hok as [Hok|Hok].
    + destruct w as [|x w]; [congruence|]. cbn [tl app] in Hok. rewrite forallb_app in Hok.
      apply andb_true_iff in Hok as [_ Hok]. cbn [forallb] in Hok.
      apply andb_true_iff in Hok as [Hok _]. congruence.
    + apply existsb_exists in Hok as (l' & Hl' & He). apply text_eqb_eq in He.
      apply (Hmulti l' Hl'). rewrite <- He, <- E. eauto.
  - split; [|discriminate]. cbn [pat_matches] in Hp.
    destruct (Nat.le_gt_cases m (length w)) as [|Hgt]; [assumption|exfalso].
    pose proof table_lit_ok as Hok. rewrite forallb_forall in Hok. specialize (Hok _ Hin).
    cbn [fst lit_ok] in Hok.
    destruct (firstn_past _ _ _ Hgt Hm) as (c & v & r' & -> & E).
    cbn [starts_non_word] in Hrest. rewrite E in Hp.
    rewrite map_app in Hp. cbn [map] in Hp.
    assert (Hc : In (to_lower_ascii c) (map to_lower_ascii (txt l))).
    { rewrite <- Hp. apply in_or_app; right; left; reflexivity. }
    apply in_map_iff in Hc as (y & Ey & Hy). rewrite forallb_forall in Hok.
    specialize (Hok _ Hy). symmetry in Ey. apply (lower_word_char _ _ Ey) in Hok. congruence.
  - cbn [pat_matches] in Hp. pose proof (table_re _ _ Hin) as Hr.
    assert (Hhd : forall c u, firstn m (w ++ rest) = c :: u -> ident_start (c :: u ++ skipn m (w ++ rest)) = true).
    { intros c u E. rewrite E in Hsplit. cbn [app] in Hsplit. rewrite <- Hsplit.
      apply (ident_start_word _ _ Hw). }
    assert (Hone : forall c u, ident_start (c :: u) = true ->
       (in_class cl_letter c || in_class [(64,64);(35,35);(95,95);(36,36)]%N c) = true).
    { intros c u H. destruct u as [|d u]; cbn [ident_start] in H; revert H;
        destruct (in_class cl_letter c); cbn [orb]; auto; intros H.
      - unfold in_class, in_range. cbn [existsb fst snd].
        apply N.eqb_eq in H; subst; reflexivity.
      - apply orb_true_iff in H as [H|H].
        + apply N.eqb_eq in H; subst; reflexivity.
        + now apply andb_true_iff in H as [H _]. }
    cbn [In] in Hr.
    assert (Hnot : forall c, (c = 32 \/ c = 9 \/ c = 10 \/ c = 13 \/ c = 38 \/ (48 <= c <= 57))%N ->
        (in_class cl_letter c || in_class [(64,64);(35,35);(95,95);(36,36)]%N c) = false).
    { intros c H. unfold in_class, in_range, cl_letter; cbn [existsb fst snd].
      repeat match goal with |- context [N.leb ?x ?y] => destruct (N.leb_spec x y); try lia end; reflexivity. }
    assert (Hfirst : forall c u, firstn m (w ++ rest) = c :: u ->
        ~ (c = 32 \/ c = 9 \/ c = 10 \/ c = 13 \/ c = 38 \/ (48 <= c <= 57))%N).
    { intros c u E Hc. specialize (Hhd _ _ E). apply Hone in Hhd. rewrite (Hnot _ Hc) in Hhd.
      discriminate. }
    assert (Hcls : forall cl c, in_class cl c = true -> exists a b, In (a, b) cl /\ (a <= c <= b)%N).
    { intros cl c H. apply existsb_exists in H as ([a b] & Hi & H). unfold in_range in H.
      cbn [fst snd] in H. apply andb_true_iff in H as [H1 H2]. apply N.leb_le in H1, H2. eauto. }
    destruct Hr as [Hr|[Hr|[Hr|[Hr|[Hr|[Hr|[]]]]]]]; injection Hr as <- <-.
    + exfalso. apply rseq_inv in Hp as (a & b & E & Ha & _). inversion Ha as [|? ? Hc| | | | |]; subst.
      cbn [app] in E. apply (Hfirst _ _ E). apply Hcls in Hc as (x & y & [[= <- <-]|[[= <- <-]|[]]] & Hc); lia.
    + exfalso. apply rseq_inv in Hp as (a & b & E & Ha & _).
      inversion Ha as [| | |? ? ? Hc|? ? ? Hc| |]; subst.
      * inversion Hc as [|? ? Hd| | | | |]; subst. apply (Hfirst _ _ E).
        apply Hcls in Hd as (x & y & [[= <- <-]|[]] & Hd); lia.
      * apply rseq_inv in Hc as (a' & b' & -> & H1 & _).
        inversion H1 as [|? ? Hd| | | | |]; subst. apply (Hfirst _ _ E).
        apply Hcls in Hd as (x & y & [[= <- <-]|[]] & Hd); lia.
    + split; [|auto].
      destruct (Nat.le_gt_cases m (length w)) as [|Hgt]; [assumption|exfalso].
      destruct (firstn_past _ _ _ Hgt Hm) as (c & v & r' & -> & E).
      cbn [starts_non_word] in Hrest. rewrite E in Hp. apply word_ext in Hp; congruence.
    + exfalso. apply Htwig.
      assert (Hch : forall c u, rmatch (RChar c) u -> u = [c]).
      { intros c u H. inversion H as [|? ? Hd| | | | |]; subst.
        apply Hcls in Hd as (x & y & [[= <- <-]|[]] & Hd). f_equal; lia. }
      unfold re_component in Hp.
      apply rseq_inv in Hp as (a1 & b1 & E1 & H1 & Hp). apply Hch in H1 as ->.
      apply rseq_inv in Hp as (a2 & b2 & -> & H2 & Hp). apply Hch in H2 as ->.
      apply rseq_inv in Hp as (a3 & b3 & -> & H3 & Hp). apply Hch in H3 as ->.
      apply rseq_inv in Hp as (a4 & b4 & -> & H4 & Hp). apply Hch in H4 as ->.
      apply rseq_inv in Hp as (a5 & b5 & -> & H5 & Hp).
      apply rseq_inv in H5 as (a6 & b6 & -> & H6 & H7). apply Hch in H6 as ->.
      rewrite E1 in Hsplit. rewrite Hsplit. cbn. eexists. reflexivity.
    + exfalso. apply rseq_inv in Hp as (a & b & E & Ha & _).
      apply rseq_inv in Ha as (a' & b' & -> & H1 & _).
      inversion H1 as [|? ? Hd| | | | |]; subst. apply (Hfirst _ _ E).
      apply Hcls in Hd as (x & y & [[= <- <-]|[]] & Hd); lia.
    + exfalso. apply rseq_inv in Hp as (a & b & E & Ha & _).
      inversion Ha as [|? ? Hd| | | | |]; subst. apply (Hfirst _ _ E).
      apply Hcls in Hd as (x & y & [[= <- <-]|[]] & Hd); lia.
Qed.

(** The winner on a text that starts with the identifier [w]. *)
Lemma ident_winner : forall w rest p k n,
  rmatch re_word w -> starts_non_word rest ->
  (forall l, In l multi_words -> ~ exists r, w ++ rest = l ++ r) ->
  (~ exists r, w ++ rest = txt "twig:" ++ r) ->
  winner (w ++ rest) p k n ->
  n = length w /\
  ((is_re p = false /\ In (p, k) lex_table /\ pat_matches p w) \/
   (k = TK_WORD /\ forall p' k', In (p', k') lex_table -> is_re p' = false -> ~ pat_matches p' w)).
Proof.
  intros w rest p k n Hw Hrest Hmulti Htwig (t1 & t2 & Et & (Hn & Hp & _) & Hall & Hearly).
  assert (Hin : In (p, k) lex_table) by (rewrite Et; apply in_elt).
  destruct (ident_prefix w rest p k n Hw Hrest Hmulti Htwig Hin Hn Hp) as [Hle Hre].
  assert (Hfw : firstn (length w) (w ++ rest) = w) by apply firstn_app_exact.
  assert (Hlw : length w <= length (w ++ rest)) by (rewrite app_length; lia).
  assert (n = length w).
  { apply Nat.le_antisymm; [assumption|]. apply (Hall _ _ _ table_word Hlw).
    cbn [pat_matches]. now rewrite Hfw. }
  subst n. split; [reflexivity|]. rewrite Hfw in Hp.
  destruct (is_re p) eqn:Er; [|left; auto].
  right. destruct (Hre eq_refl) as [-> ->]. split; [reflexivity|].
  intros p' k' Hin' Hre' Hm. rewrite Et in Hin'.
  apply in_app_or in Hin' as [Hi|[[= <- <-]|Hi]].
  - assert (length w < length w); [|lia]. apply (Hearly _ _ _ Hi Hlw). now rewrite Hfw.
  - discriminate.
  - pose proof table_lits_first as Hlf. rewrite Et in Hlf.
    pose proof (lits_first_after _ _ _ _ Hlf eq_refl _ Hi) as H. cbn in H. congruence.
Qed.
