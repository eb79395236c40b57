(** The tokens of texts that differ in indentation, empty lines and line endings only. *)
From Coq Require Import NArith String Bool Arith Lia List.
Import ListNotations.
From Verif Require Import Text Kind Regex Lexer LexerProofs PropLexer Machine ParserApi Total PropLines Layout LexLayout Endings.
Local Notation length := List.length (only parsing).
Local Open Scope list_scope.

(** * No token but line breaks contains a carriage return or a line feed *)
Definition endc (c : N) : Prop := c = 10%N \/ c = 13%N.
Definition without (x : N) (p : N * N) : bool := negb (in_range (fst p) (snd p) x).

Lemma deriv_without : forall x r, re_all (without x) r = true -> deriv x r = REmpty.
Proof.
  intros x. induction r as [| |cl|a IHa b IHb|a IHa b IHb|a IHa]; cbn [re_all deriv]; intros H; auto.
  - assert (E : in_class cl x = false); [|now rewrite E].
    unfold in_class. induction cl as [|p cl IH]; [reflexivity|]. cbn [forallb existsb] in *.
    apply andb_true_iff in H as [H1 H2]. apply negb_true_iff in H1. rewrite H1. now apply IH.
  - apply andb_true_iff in H as [H1 H2]. rewrite IHa, IHb by assumption. destruct (nullable a); reflexivity.
  - apply andb_true_iff in H as [H1 H2]. rewrite IHa, IHb by assumption. reflexivity.
  - rewrite IHa by assumption. reflexivity.
Qed.

Lemma rlong_without : forall x l v r n best, re_all (without x) r = true ->
  rlong_go r (l ++ x :: v) n best = rlong_go r l n best.
Proof.
  intros x. induction l as [|c l IH]; intros v r n best Hr.
  - cbn [app rlong_go]. rewrite deriv_without by exact Hr. reflexivity.
  - cbn [app rlong_go]. destruct (is_rempty (deriv c r)); [reflexivity|]. apply IH. now apply all_deriv.
Qed.

Lemma starts_with_without : forall x p l v, ~ In x p -> starts_with p (l ++ x :: v) = starts_with p l.
Proof.
  intros x. induction p as [|y p IH]; intros l v Hp; [reflexivity|]. destruct l as [|z l]; cbn [app starts_with].
  - assert (E : N.eqb y x = false) by (apply N.eqb_neq; intros ->; apply Hp; now left). now rewrite E.
  - rewrite IH; [reflexivity|]. intros H. apply Hp. now right.
Qed.
Lemma starts_with_ci_without : forall x p l v, ~ In (to_lower_ascii x) (map to_lower_ascii p) ->
  starts_with_ci p (l ++ x :: v) = starts_with_ci p l.
Proof.
  intros x. induction p as [|y p IH]; intros l v Hp; [reflexivity|]. destruct l as [|z l]; cbn [app starts_with_ci].
  - assert (E : N.eqb (to_lower_ascii y) (to_lower_ascii x) = false); [|now rewrite E].
    apply N.eqb_neq. intros E. apply Hp. left. exact E.
  - rewrite IH; [reflexivity|]. intros H. apply Hp. now right.
Qed.

Definition pat_without (x : N) (p : pattern) : bool :=
  match p with
  | PLit l => negb (existsb (N.eqb x) (txt l))
  | PLitCI l => negb (existsb (N.eqb (to_lower_ascii x)) (map to_lower_ascii (txt l)))
  | PRe r => re_all (without x) r
  end.
Lemma not_exists : forall x l, negb (existsb (N.eqb x) l) = true -> ~ In x l.
Proof.
  intros x l H I. apply negb_true_iff in H. assert (E : existsb (N.eqb x) l = true); [|congruence].
  apply existsb_exists. exists x. split; [exact I|apply N.eqb_refl].
Qed.

Lemma pat_ends : forall p k l x v, In (p, k) lex_table -> endc x -> l <> [] -> l <> [13%N] -> ~ In 10%N l ->
  pat_len p (l ++ x :: v) = pat_len p l.
Proof.
  assert (H1 : forallb (fun e => kind_eqb (snd e) TK_LINE_BREAK || pat_without 10 (fst e)) lex_table = true) by (vm_compute; reflexivity).
  assert (H2 : forallb (fun e => kind_eqb (snd e) TK_LINE_BREAK || pat_without 13 (fst e)) lex_table = true) by (vm_compute; reflexivity).
  intros p k l x v I Ex N1 N2 Hl.
  assert (H : kind_eqb k TK_LINE_BREAK || pat_without x p = true).
  { rewrite forallb_forall in H1, H2. destruct Ex as [->| ->]; [exact (H1 _ I)|exact (H2 _ I)]. }
  clear H1 H2. apply orb_true_iff in H as [H|H].
  - apply kind_eqb_eq in H. subst k. apply break_entry in I. subst p. rewrite lb_none by assumption.
    pose proof (lb_none l [] N1 N2 Hl) as E. rewrite app_nil_r in E. now rewrite E.
  - destruct p as [s|s|r]; cbn [pat_without pat_len] in *.
    + rewrite starts_with_without by (now apply not_exists). reflexivity.
    + rewrite starts_with_ci_without by (now apply not_exists). reflexivity.
    + now apply rlong_without.
Qed.

(** ** The operators of two words *)
Lemma word_entry : forall p k w, In (p, k) lex_table -> (k = TK_NOT /\ w = "not" \/ k = TK_IS /\ w = "is")%string -> p = PLit w.
Proof.
  assert (H : forallb (fun e => match e with (PLit l, TK_NOT) => String.eqb l "not" | (_, TK_NOT) => false
    | (PLit l, TK_IS) => String.eqb l "is" | (_, TK_IS) => false | _ => true end) lex_table = true) by (vm_compute; reflexivity).
  intros p k w I C. rewrite forallb_forall in H. specialize (H _ I).
  destruct C as [[-> ->]|[-> ->]]; destruct p as [l|l|r]; try discriminate H; apply String.eqb_eq in H; now subst.
Qed.

Lemma cb_ends : forall suf a b l x x' v v', endc x -> endc x' -> ~ In 10%N (txt suf) -> ~ In 13%N (txt suf) ->
  (x = x' \/ l <> txt suf) ->
  cb_suffix suf a b (l ++ x :: v) = cb_suffix suf a b (l ++ x' :: v') /\ fst (cb_suffix suf a b (l ++ x :: v)) <= length l.
Proof.
  intros suf a b l x x' v v' Ex Ex' Hs1 Hs2 D. unfold cb_suffix.
  assert (S1 : starts_with (txt suf) (l ++ x :: v) = starts_with (txt suf) l) by (apply starts_with_without; destruct Ex as [->| ->]; assumption).
  assert (S2 : starts_with (txt suf) (l ++ x' :: v') = starts_with (txt suf) l) by (apply starts_with_without; destruct Ex' as [->| ->]; assumption).
  rewrite S1, S2. destruct (starts_with (txt suf) l) eqn:E; [|cbn; split; [reflexivity|lia]].
  apply starts_with_iff in E as (w & ->). rewrite <- !app_assoc, !skipn_txt.
  replace (boundary_after (w ++ x :: v)) with (boundary_after (w ++ x' :: v')).
  2: { destruct w; [|reflexivity]. destruct D as [->|D]; [reflexivity|]. exfalso. apply D. apply app_nil_r. }
  split; [reflexivity|]. destruct (boundary_after _); cbn [fst]; [|lia]. rewrite app_length, length_txt. lia.
Qed.

(** The next token of a line depends neither on what is behind the line nor on how it ends. *)
Lemma one_ends : forall l x x' v v', endc x -> endc x' -> l <> [] -> l <> [13%N] -> ~ In 10%N l ->
  (x = x' \/ l <> txt "not in"%string /\ l <> txt "is not"%string) ->
  lex_one (l ++ x :: v) = lex_one (l ++ x' :: v') /\ fst (lex_one (l ++ x :: v)) <= length l.
Proof.
  intros l x x' v v' Ex Ex' N1 N2 Hl D. rewrite !lex_one_eq.
  assert (E : best_match lex_table (l ++ x :: v) None = best_match lex_table l None).
  { apply best_same. intros p k I. eapply pat_ends; eauto. }
  assert (E' : best_match lex_table (l ++ x' :: v') None = best_match lex_table l None).
  { apply best_same. intros p k I. eapply pat_ends; eauto. }
  rewrite E, E'. clear E E'.
  destruct (best_match_table l) as [[-> _]|(p & k & n & -> & W & Hn)].
  { split; [reflexivity|]. cbn [fst]. destruct l; [contradiction|]. cbn [length]. lia. }
  assert (Sk : forall w, skipn n (l ++ w) = skipn n l ++ w).
  { intros w. rewrite skipn_app. replace (n - length l) with 0 by lia. reflexivity. }
  rewrite !Sk. assert (HL : length (skipn n l) = length l - n) by apply skipn_length.
  assert (X : forall suf a b, ~ In 10%N (txt suf) -> ~ In 13%N (txt suf) -> (x = x' \/ skipn n l <> txt suf) ->
    (let (b0, k') := cb_suffix suf a b (skipn n l ++ x :: v) in (n + b0, k')) =
    (let (b0, k') := cb_suffix suf a b (skipn n l ++ x' :: v') in (n + b0, k')) /\
    fst (let (b0, k') := cb_suffix suf a b (skipn n l ++ x :: v) in (n + b0, k')) <= length l).
  { intros suf a b Hs1 Hs2 Hd. destruct (cb_ends suf a b (skipn n l) x x' v v' Ex Ex' Hs1 Hs2 Hd) as [Ec Lc]. rewrite <- Ec. split; [reflexivity|].
    destruct (cb_suffix _ _ _ _) as [b0 k']. cbn [fst] in *. lia. }
  destruct W as (t1 & t2 & Et & (_ & M & _) & _).
  assert (I : In (p, k) lex_table) by (rewrite Et; apply in_elt). clear Et t1 t2.
  destruct (kind_eqb k TK_NOT) eqn:K1.
  { apply kind_eqb_eq in K1. apply X; [cbn; intuition discriminate|cbn; intuition discriminate|].
    destruct D as [->|[D _]]; [now left|right]. intros Es. apply D.
    rewrite (word_entry p k "not" I) in M by tauto. cbn [pat_matches] in M.
    rewrite <- (firstn_skipn n l), M, Es. reflexivity. }
  destruct (kind_eqb k TK_IS) eqn:K2.
  { apply kind_eqb_eq in K2. apply X; [cbn; intuition discriminate|cbn; intuition discriminate|].
    destruct D as [->|[_ D]]; [now left|right]. intros Es. apply D.
    rewrite (word_entry p k "is" I) in M by tauto. cbn [pat_matches] in M.
    rewrite <- (firstn_skipn n l), M, Es. reflexivity. }
  cbn [fst]. split; [reflexivity|lia].
Qed.

(** * Texts that go on alike *)
Definition ending (e : text) : Prop := e = [10%N] \/ e = [13%N; 10%N].
Definition joins (l : text) : Prop := ends_with (txt "not in"%string) l \/ ends_with (txt "is not"%string) l.

Inductive akin : text -> text -> Prop :=
| akin_end l : ~ In 10%N l -> akin l l
| akin_line l e e' v v' : ~ In 10%N l -> ~ ends_with [13%N] l -> ending e -> ending e' -> (e = e' \/ ~ joins l) ->
    akin (skipgap v) (skipgap v') -> akin (l ++ e ++ v) (l ++ e' ++ v').

Lemma gap_ending : forall e v, ending e -> gap_char (e ++ v) = Some TK_LINE_BREAK /\ skipgap (e ++ v) = skipgap v.
Proof. intros e v [->| ->]; split; reflexivity. Qed.

Lemma akin_gap_char : forall u u', akin u u' -> gap_char u = gap_char u'.
Proof.
  intros u u' [l Hl|l e e' v v' Hl Hc He He' _ _]; [reflexivity|]. destruct l as [|c [|d l]]; [| |reflexivity].
  - cbn [app]. now rewrite (proj1 (gap_ending e v He)), (proj1 (gap_ending e' v' He')).
  - assert (Nc : N.eqb c 13 = false).
    { apply N.eqb_neq. intros ->. apply Hc. now exists []. }
    cbn [app gap_char]. rewrite Nc. reflexivity.
Qed.

Lemma ends_with_suffix : forall w a b, ends_with w b -> ends_with w (a ++ b).
Proof. intros w a b (p & ->). exists (a ++ p). now rewrite app_assoc. Qed.

Lemma skip_no_lf : forall l, ~ In 10%N l -> ~ In 10%N (skipgap l).
Proof.
  assert (Y : forall m l, length l <= m -> ~ In 10%N l -> ~ In 10%N (skipgap l)).
  { induction m as [|m IHm]; intros [|c l0] Hm H0; cbn [length] in Hm; try (cbn; tauto || lia). cbn [skipgap].
    destruct (_ || _); [apply IHm; [lia|]; intros X; apply H0; now right|].
    destruct (N.eqb c 13); [|exact H0]. destruct l0 as [|d l1]; [exact H0|].
    destruct (N.eqb d 10); [|exact H0]. apply IHm; [cbn [length] in Hm; lia|]. intros X; apply H0; right; now right. }
  intros l. now apply (Y (length l)).
Qed.

Lemma akin_skip : forall u u', akin u u' -> akin (skipgap u) (skipgap u').
Proof.
  intros u u' [l Hl|l e e' v v' Hl Hc He He' Hj Hv]; [constructor; now apply skip_no_lf|].
  induction l as [|c l IH].
  - cbn [app]. now rewrite (proj2 (gap_ending e v He)), (proj2 (gap_ending e' v' He')).
  - assert (Nl : ~ In 10%N l) by (intros X; apply Hl; now right).
    assert (Hc' : ~ ends_with [13%N] l) by (intros X; apply Hc; now apply (ends_with_suffix _ [c])).
    assert (Hj' : e = e' \/ ~ joins l).
    { destruct Hj as [->|Hj]; [now left|right]. intros [X|X]; apply Hj; [left|right]; now apply (ends_with_suffix _ [c]). }
    specialize (IH Nl Hc' Hj'). cbn [app skipgap].
    destruct (blankc c) eqn:B; cbn [orb]; [exact IH|].
    destruct (N.eqb c 10) eqn:E; [apply N.eqb_eq in E; subst c; exfalso; apply Hl; now left|].
    assert (Self : akin (c :: l ++ e ++ v) (c :: l ++ e' ++ v')) by now apply (akin_line (c :: l)).
    destruct (N.eqb c 13) eqn:E2; [|exact Self]. apply N.eqb_eq in E2. subst c.
    destruct l as [|d l]; [exfalso; apply Hc; now exists []|]. cbn [app] in *.
    destruct (N.eqb d 10) eqn:E3; [apply N.eqb_eq in E3; subst d; exfalso; apply Nl; now left|]. exact Self.
Qed.

Lemma ends_with_skipn : forall w n l, ends_with w (skipn n l) -> ends_with w l.
Proof. intros w n l H. rewrite <- (firstn_skipn n l). now apply ends_with_suffix. Qed.

Lemma ending_cons : forall e, ending e -> exists x w, e = x :: w /\ endc x.
Proof. intros e [->| ->]; do 2 eexists; (split; [reflexivity|]); unfold endc; auto. Qed.

Lemma akin_tokens : forall u u' off off' ts ts', akin u u' -> lexed off u ts -> lexed off' u' ts' -> same_but_blanks ts ts'.
Proof.
  assert (H : forall m u u' off off' ts ts', length u <= m -> akin u u' -> lexed off u ts -> lexed off' u' ts' -> same_but_blanks ts ts').
  { induction m as [m IH] using (well_founded_induction Wf_nat.lt_wf). intros u u' off off' ts ts' Hm Hu HL HL'.
    destruct (gap_split _ _ _ HL) as (g & r & o & -> & Fg & Hr & Hg).
    destruct (gap_split _ _ _ HL') as (g' & r' & o' & -> & Fg' & Hr' & Hg').
    rewrite <- (akin_gap_char _ _ Hu), <- Hg in Hg'. symmetry in Hg'.
    pose proof (akin_skip _ _ Hu) as Hz. pose proof (skip_gap_char u) as Gz. pose proof (skip_length u) as Lz.
    revert Hr Hr' Hz Gz Lz. generalize (skipgap u') as z'. generalize (skipgap u) as z. intros z z' Hr Hr' Hz Gz Lz.
    assert (Ne : z = [] <-> z' = []).
    { destruct Hz as [l Hl|l e e' v v' Hl Hc He He' _ _]; [tauto|].
      destruct (ending_cons e He) as (? & ? & -> & _), (ending_cons e' He') as (? & ? & -> & _).
      destruct l; cbn [app]; split; discriminate. }
    destruct Hr as [o|o z n k t rest Nz Ez Bz Et Hrest].
    - rewrite (proj1 Ne eq_refl) in Hr'. inversion Hr'; subst; [|contradiction]. rewrite !app_nil_r. now constructor.
    - destruct Hr' as [o'|o' z' n' k' t' rest' Nz' Ez' Bz' Et' Hrest'].
      { destruct (Nz (proj2 Ne eq_refl)). }
      assert (Hk : is_trivia k = false) by (eapply gap_none; eauto).
      assert (C : n = n' /\ k = k' /\ firstn n z = firstn n z' /\ akin (skipn n z) (skipn n z')).
      { destruct Hz as [l Hl|l e e' v v' Hl Hc He He' Hj Hv].
        - rewrite Ez in Ez'. injection Ez' as <- <-. repeat split; auto. constructor. now apply not_in_skipn.
        - assert (Hl1 : l <> []) by (intros ->; cbn [app] in Gz; rewrite (proj1 (gap_ending e v He)) in Gz; discriminate Gz).
          assert (Hl2 : l <> [13%N]) by (intros ->; apply Hc; now exists []).
          assert (C1 : lex_one (l ++ e ++ v) = lex_one (l ++ e' ++ v') /\ fst (lex_one (l ++ e ++ v)) <= length l).
          { destruct Hj as [<-|Hj].
            - destruct (ending_cons e He) as (x & w & -> & Ex). cbn [app]. apply one_ends; auto.
            - destruct (ending_cons e He) as (x & w & -> & Ex), (ending_cons e' He') as (x' & w' & -> & Ex').
              cbn [app]. apply one_ends; auto. right. split; intros ->; apply Hj; [left|right]; now exists []. }
          destruct C1 as [E L]. rewrite Ez, Ez' in E. injection E as <- <-. rewrite Ez in L. cbn [fst] in L.
          rewrite !firstn_app, !skipn_app. replace (n - length l) with 0 by lia. cbn [firstn skipn]. rewrite !app_nil_r.
          repeat split; auto. constructor; auto; [now apply not_in_skipn|intros X; apply Hc; eapply ends_with_skipn; eauto|].
          destruct Hj as [Hj|Hj]; [now left|right]. intros [X|X]; apply Hj; [left|right]; eapply ends_with_skipn; eauto. }
      destruct C as (<- & <- & Ef & Hn). subst t t'. rewrite <- Ef in *.
      apply SB_tok; auto; [split; reflexivity|].
      apply (IH (length (skipn n z))) with (4 := Hrest) (5 := Hrest'); auto.
      rewrite skipn_length. lia. }
  intros u u' off off' ts ts' Hu HL HL'. now apply (H (length u) u u' off off').
Qed.

(** * Texts with the same layout *)
Lemma unix_cons : forall c s, N.eqb c 13 = false -> unix (c :: s) = c :: unix s.
Proof. intros c [|d s] H; [reflexivity|]. cbn [unix]. rewrite H. reflexivity. Qed.
Lemma unix_crlf : forall s, unix (13%N :: 10%N :: s) = 10%N :: unix s.
Proof. intros s. change (unix (13%N :: 10%N :: s)) with (unix (10%N :: s)). now apply unix_cons. Qed.
Lemma unix_line : forall l e v, ~ In 10%N l -> ~ ends_with [13%N] l -> ending e -> unix (l ++ e ++ v) = l ++ 10%N :: unix v.
Proof.
  induction l as [|c l IH]; intros e v Hl Hc He.
  - destruct He as [->| ->]; cbn [app]; [now apply unix_cons|apply unix_crlf].
  - assert (IH' : unix (l ++ e ++ v) = l ++ 10%N :: unix v).
    { apply IH; [intros X; apply Hl; now right|intros X; apply Hc; now apply (ends_with_suffix _ [c])|exact He]. }
    cbn [app]. rewrite <- IH'. destruct l as [|d l].
    + apply unix_cons. apply N.eqb_neq. intros ->. apply Hc. now exists [].
    + cbn [app]. assert (E : N.eqb d 10 = false) by (apply N.eqb_neq; intros ->; apply Hl; right; now left).
      change (unix (c :: d :: l ++ e ++ v)) with (if N.eqb c 13 && N.eqb d 10 then unix (d :: l ++ e ++ v) else c :: unix (d :: l ++ e ++ v)).
      rewrite E, andb_false_r. reflexivity.
Qed.
Lemma unix_no_lf : forall l, ~ In 10%N l -> unix l = l.
Proof.
  induction l as [|c l IH]; intros H; [reflexivity|]. assert (IH' : unix l = l) by (apply IH; intros X; apply H; now right).
  destruct l as [|d l]; [reflexivity|].
  assert (E : N.eqb d 10 = false) by (apply N.eqb_neq; intros ->; apply H; right; now left).
  change (unix (c :: d :: l)) with (if N.eqb c 13 && N.eqb d 10 then unix (d :: l) else c :: unix (d :: l)).
  rewrite E, andb_false_r, IH'. reflexivity.
Qed.
Lemma lines_line : forall l v, ~ In 10%N l -> lines (l ++ 10%N :: v) = l :: lines v.
Proof.
  induction l as [|c l IH]; intros v H; [reflexivity|]. cbn [app lines].
  assert (E : N.eqb c 10 = false) by (apply N.eqb_neq; intros ->; apply H; now left).
  rewrite E, IH; [reflexivity|]. intros X; apply H; now right.
Qed.
Lemma lines_one : forall l, ~ In 10%N l -> lines l = [l].
Proof.
  induction l as [|c l IH]; intros H; [reflexivity|]. cbn [lines].
  assert (E : N.eqb c 10 = false) by (apply N.eqb_neq; intros ->; apply H; now left).
  rewrite E, IH; [reflexivity|]. intros X; apply H; now right.
Qed.

Lemma solid_not_nil : forall ls, ls <> [] -> solid ls <> [].
Proof.
  induction ls as [|l ls IH]; intros H; [contradiction|]. cbn [solid]. destruct ls as [|m ls]; [discriminate|].
  destruct l; [apply IH; discriminate|discriminate].
Qed.
Lemma layout_not_nil : forall s, layout s <> [].
Proof. intros s. apply solid_not_nil. destruct (lines_cons (unix s)) as (l & ls & ->). discriminate. Qed.

Lemma layout_blank : forall c s, blankc c = true -> layout (c :: s) = layout s.
Proof.
  intros c s B. unfold layout. rewrite unix_cons by (destruct (blankc_cases c B) as [->| ->]; reflexivity).
  cbn [lines]. assert (E : N.eqb c 10 = false) by (destruct (blankc_cases c B) as [->| ->]; reflexivity).
  rewrite E. destruct (lines_cons (unix s)) as (l & ls & ->). cbn [map unindented]. fold (blankc c). rewrite B. reflexivity.
Qed.
Lemma layout_lf : forall s, layout (10%N :: s) = layout s.
Proof.
  intros s. unfold layout. rewrite unix_cons by reflexivity. cbn [lines N.eqb Pos.eqb].
  destruct (lines_cons (unix s)) as (l & ls & ->). reflexivity.
Qed.
Lemma layout_crlf : forall s, layout (13%N :: 10%N :: s) = layout s.
Proof. intros s. rewrite <- (layout_lf s). unfold layout. now rewrite unix_crlf, unix_cons. Qed.

Lemma steady_tail : forall c s, steady (c :: s) -> steady s.
Proof.
  intros c s H l Hl. unfold steady in H. cbn [lines] in H. destruct (N.eqb c 10).
  - apply H. destruct (lines_cons s) as (l0 & ls & E). rewrite E in *. cbn [removelast] in *. now right.
  - destruct (lines_cons s) as (l0 & ls & E). rewrite E in *. cbn [removelast] in *. destruct ls as [|l1 ls]; [destruct Hl|].
    destruct Hl as [<-|Hl]; [|apply H; now right]. intros w Hw X. apply (H (c :: l0) (or_introl eq_refl) w Hw).
    now apply (ends_with_suffix _ [c]).
Qed.
Lemma steady_suffix : forall a s, steady (a ++ s) -> steady s.
Proof. induction a as [|c a IH]; intros s H; [exact H|]. apply IH. exact (steady_tail _ _ H). Qed.

Lemma head_unindented : forall z, gap_char z = None -> unindented z = z.
Proof. intros [|c z]; [reflexivity|]. cbn [gap_char unindented]. fold (blankc c). destruct (blankc c); [discriminate|reflexivity]. Qed.

(** A text that does not start with white space: one line, or a line, its ending and the rest. *)
Lemma first_line : forall z, gap_char z = None -> steady z ->
  (~ In 10%N z /\ layout z = [z]) \/
  exists l e v, z = l ++ e ++ v /\ ~ In 10%N l /\ ~ ends_with [13%N] l /\ ending e /\ layout z = l :: layout v /\
    (e = [13%N; 10%N] -> ~ joins l).
Proof.
  intros z G S. destruct (lines_cons z) as (m & ls & E). destruct (lines_split z m ls E) as (Hm & [[-> ->]|(v & -> & ->)]).
  - left. split; [exact Hm|]. unfold layout. rewrite unix_no_lf, lines_one by exact Hm. cbn [map solid].
    rewrite head_unindented by exact G. reflexivity.
  - right.
    assert (Sl : steady_line m).
    { apply S. rewrite lines_line by exact Hm. destruct (lines_cons v) as (? & ? & ->). now left. }
    assert (C : exists l e, m ++ 10%N :: v = l ++ e ++ v /\ ~ In 10%N l /\ ~ ends_with [13%N] l /\ ending e /\
       (e = [13%N; 10%N] -> ~ joins l)).
    { destruct (exists_last (l := 10%N :: m)) as (m0 & c & Em); [discriminate|].
      destruct (N.eq_dec c 13) as [->|Nc].
      - destruct m0 as [|d l]; [discriminate Em|]. injection Em as _ ->.
        exists l, [13%N; 10%N]. split; [now rewrite <- app_assoc|]. split; [intros X; apply Hm; apply in_or_app; now left|].
        assert (W : forall w, In w unsteady -> ~ ends_with w l).
        { intros w Hw (p & ->). apply (Sl w Hw). exists p. now rewrite app_assoc. }
        split; [apply W; cbn; auto|]. split; [now right|]. intros _ [X|X]; revert X; apply W; cbn; auto.
      - exists m, [10%N]. split; [reflexivity|]. split; [exact Hm|]. split; [|split; [now left|discriminate]].
        intros (p & ->). apply Nc. change (10%N :: p ++ [13%N]) with ((10%N :: p) ++ [13%N]) in Em.
        apply app_inj_tail in Em as [_ <-]. reflexivity. }
    destruct C as (l & e & El & Hl & Hc & He & Hj). exists l, e, v. split; [exact El|]. rewrite El in G |- *. do 3 (split; [assumption|]). split; [|exact Hj].
    unfold layout. rewrite unix_line, lines_line by assumption. destruct (lines_cons (unix v)) as (l1 & l2 & ->). cbn [map].
    assert (Nl : l <> []) by (intros ->; cbn [app] in G; rewrite (proj1 (gap_ending e v He)) in G; discriminate G).
    assert (Ul : unindented l = l).
    { destruct l as [|c l]; [reflexivity|]. cbn [app gap_char unindented] in *. fold (blankc c). destruct (blankc c); [discriminate G|reflexivity]. }
    rewrite Ul. cbn [solid]. destruct l; [contradiction|reflexivity].
Qed.

(** One character, or one line ending, of the white space at the start. *)
Lemma gap_step : forall s k, gap_char s = Some k -> exists a s', s = a ++ s' /\ a <> [] /\ skipgap s = skipgap s' /\ layout s = layout s'.
Proof.
  intros [|c s] k; cbn [gap_char]; [discriminate|].
  destruct (blankc c) eqn:B.
  { intros _. exists [c], s. split; [reflexivity|]. split; [discriminate|]. split; [cbn [skipgap]; now rewrite B|now apply layout_blank]. }
  destruct (N.eqb c 10) eqn:E.
  { apply N.eqb_eq in E. subst c. intros _. exists [10%N], s. split; [reflexivity|]. split; [discriminate|]. split; [reflexivity|apply layout_lf]. }
  destruct (N.eqb c 13) eqn:E2; [|discriminate]. apply N.eqb_eq in E2. subst c. destruct s as [|d s]; [discriminate|].
  destruct (N.eqb d 10) eqn:E3; [|discriminate]. apply N.eqb_eq in E3. subst d. intros _.
  exists [13%N; 10%N], s. split; [reflexivity|]. split; [discriminate|]. split; [reflexivity|apply layout_crlf].
Qed.

Lemma same_layout_akin : forall s s', same_layout s s' -> steady s -> steady s' -> akin (skipgap s) (skipgap s').
Proof.
  assert (H : forall n s s', length s + length s' <= n -> same_layout s s' -> steady s -> steady s' -> akin (skipgap s) (skipgap s')).
  { induction n as [n IH] using (well_founded_induction Wf_nat.lt_wf). intros s s' Hn L S S'.
    destruct (gap_char s) as [k|] eqn:G.
    { destruct (gap_step s k G) as (a & s1 & -> & Na & -> & El). rewrite app_length in Hn. destruct a as [|x a]; [contradiction|]. cbn [length] in Hn.
      apply (IH (length s1 + length s')); [lia|lia|unfold same_layout in *; congruence|now apply (steady_suffix (x :: a))|exact S']. }
    destruct (gap_char s') as [k|] eqn:G'.
    { destruct (gap_step s' k G') as (a & s1 & -> & Na & -> & El). rewrite app_length in Hn. destruct a as [|x a]; [contradiction|]. cbn [length] in Hn.
      apply (IH (length s + length s1)); [lia|lia|unfold same_layout in *; congruence|exact S|now apply (steady_suffix (x :: a))]. }
    rewrite !skip_id by assumption. unfold same_layout in L.
    destruct (first_line s G S) as [[H1 E1]|(l & e & v & -> & Hl & Hc & He & E1 & J)];
    destruct (first_line s' G' S') as [[H2 E2]|(l' & e' & v' & -> & Hl' & Hc' & He' & E2 & J')]; rewrite E1, E2 in L.
    - injection L as ->. now constructor.
    - injection L as _ L. symmetry in L. destruct (layout_not_nil _ L).
    - injection L as _ L. destruct (layout_not_nil _ L).
    - injection L as -> L. constructor; auto.
      + destruct He as [->| ->], He' as [->| ->]; auto.
      + rewrite !app_length in Hn. destruct (ending_cons e He) as (? & ? & -> & _). cbn [length] in Hn.
        apply (IH (length v + length v')); [lia|lia|exact L| |].
        * apply (steady_suffix l') in S. exact (steady_suffix _ _ S).
        * apply (steady_suffix l') in S'. exact (steady_suffix _ _ S'). }
  intros s s'. now apply (H (length s + length s')).
Qed.

(** The tokens of texts with the same layout: white space, then the same but for blanks. *)
Theorem same_layout_tokens : forall s s', same_layout s s' -> steady s -> steady s' ->
  exists g g' r r', lex s = g ++ r /\ lex s' = g' ++ r' /\ Forall blank g /\ Forall blank g' /\
    drop_trivia r = r /\ drop_trivia r' = r' /\ same_but_blanks r r'.
Proof.
  intros s s' H S S'. pose proof (same_layout_akin s s' H S S') as A.
  destruct (gap_split _ _ _ (lex_lexed s)) as (g & r & o & E & Fg & Hr & _).
  destruct (gap_split _ _ _ (lex_lexed s')) as (g' & r' & o' & E' & Fg' & Hr' & _).
  exists g, g', r, r'. rewrite E, E'.
  assert (X : forall off z q, lexed off (skipgap z) q -> drop_trivia q = q).
  { intros off z q Hq. pose proof (skip_gap_char z) as G. destruct Hq as [|? ? n k t rest Nz Ez Bz Et Hrest]; [reflexivity|].
    cbn [drop_trivia tk_kind]. now rewrite (gap_none _ _ _ Ez Bz G). }
  repeat split; auto; try (eapply X; eassumption). eapply akin_tokens; eassumption.
Qed.
