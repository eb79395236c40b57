(** The lines of templates that differ in the blanks at the start of their lines: which tokens are
    on which line, and what an edit at the start of a line does.  Machinery for C72. *)
From Coq Require Import NArith String Bool Arith Lia List.
Import ListNotations.
From Verif Require Import Text Kind Regex Lexer LexerProofs PropLexer ParserApi Machine TreeSpec PropParser PropLines Layout LexLayout.
From Verif Require LexLines.
Local Notation length := List.length (only parsing).
Local Open Scope list_scope.

(** * Line feeds *)
Fixpoint lfs (s : text) : nat := match s with [] => 0 | c :: r => (if N.eqb c 10 then 1 else 0) + lfs r end.
Lemma lfs_app a b : lfs (a ++ b) = lfs a + lfs b.
Proof. induction a as [|c a IH]; [reflexivity|]. cbn [app lfs]. rewrite IH. lia. Qed.
Lemma lfs_none s : ~ In 10%N s -> lfs s = 0.
Proof.
  induction s as [|c s IH]; intros H; [reflexivity|]. cbn [lfs]. destruct (N.eqb c 10) eqn:E; [apply N.eqb_eq in E; subst; destruct H; now left|].
  rewrite IH; [reflexivity|]. intros X. apply H. now right.
Qed.
Lemma lfs_lines s : length (lines s) = S (lfs s).
Proof.
  induction s as [|c s IH]; [reflexivity|]. cbn [lines lfs]. destruct (N.eqb c 10); [cbn [length]; now rewrite IH|].
  destruct (lines s); cbn [length] in *; lia.
Qed.
Lemma same_lines_lfs s s' : same_lines s s' -> lfs s = lfs s'.
Proof.
  intros H. unfold same_lines in H. apply (f_equal (@List.length text)) in H. rewrite !map_length, !lfs_lines in H. lia.
Qed.
Lemma near_lfs u u' : near u u' -> lfs u = lfs u'.
Proof. intros [l H|l v v' H S]; [reflexivity|]. rewrite !lfs_app. cbn [lfs]. now rewrite (same_lines_lfs v v' S). Qed.

(** * How many line feeds come behind the characters of tokens *)
Definition texts (l : list (kind * text)) : text := List.concat (map snd l).
Lemma texts_app a b : texts (a ++ b) = texts a ++ texts b.
Proof. unfold texts. now rewrite map_app, concat_app. Qed.
Lemma texts_cons p l : texts (p :: l) = snd p ++ texts l.
Proof. reflexivity. Qed.
Fixpoint marks (l : list (kind * text)) : list nat :=
  match l with
  | [] => []
  | (k, s) :: r => (if is_trivia k then [] else repeat (lfs (texts r)) (length s)) ++ marks r
  end.
Definition pairs (ts : list token) : list (kind * text) := map (fun t => (tk_kind t, tk_text t)) ts.
Lemma pairs_texts ts : texts (pairs ts) = List.concat (map tk_text ts).
Proof. unfold texts, pairs. now rewrite map_map. Qed.
Lemma marks_gap g r : Forall blank g -> marks (pairs (g ++ r)) = marks (pairs r).
Proof. induction 1 as [|t g [Ht _] _ IH]; [reflexivity|]. cbn [app pairs map marks]. rewrite Ht. exact IH. Qed.

Lemma near_marks : forall u u' off off' ts ts', near u u' -> lexed off u ts -> lexed off' u' ts' -> marks (pairs ts) = marks (pairs ts').
Proof.
  assert (H : forall m u u' off off' ts ts', length u <= m -> near u u' -> lexed off u ts -> lexed off' u' ts' -> marks (pairs ts) = marks (pairs ts')).
  { induction m as [m IH] using (well_founded_induction Wf_nat.lt_wf). intros u u' off off' ts ts' Hm Hu HL HL'.
    destruct (gap_split _ _ _ HL) as (g & r & o & -> & Fg & Hr & Hg).
    destruct (gap_split _ _ _ HL') as (g' & r' & o' & -> & Fg' & Hr' & Hg').
    rewrite !marks_gap by assumption.
    pose proof (near_skip _ _ Hu) as Hz. pose proof (skip_gap_char u) as Gz. pose proof (skip_length u) as Lz.
    revert Hr Hr' Hz Gz Lz. generalize (skipgap u') as z'. generalize (skipgap u) as z. intros z z' Hr Hr' Hz Gz Lz.
    destruct Hr as [o|o z n k t rest Nz Ez Bz Et Hrest].
    - inversion Hz as [l Hl E1 E2|l v v' Hl S E1 E2]; subst; [|destruct l; discriminate E1].
      inversion Hr'; subst; [|contradiction]. reflexivity.
    - destruct Hr' as [o'|o' z' n' k' t' rest' Nz' Ez' Bz' Et' Hrest'].
      { inversion Hz as [l Hl E1 E2|l v v' Hl S E1 E2]; subst; [contradiction|destruct l; discriminate E2]. }
      assert (Hk : is_trivia k = false) by (eapply gap_none; eauto).
      assert (C : n = n' /\ k = k' /\ firstn n z = firstn n z' /\ near (skipn n z) (skipn n z')).
      { destruct Hz as [l Hl|l v v' Hl S].
        - rewrite Ez in Ez'. injection Ez' as <- <-. repeat split; auto. constructor. now apply not_in_skipn.
        - assert (Hl1 : l <> []) by (intros ->; discriminate Gz).
          assert (Hl2 : l <> [13%N]) by (intros ->; discriminate Gz).
          destruct (one_local l v v' Hl1 Hl2 Hl) as [E L]. rewrite Ez, Ez' in E. injection E as <- <-. rewrite Ez in L. cbn [fst] in L.
          rewrite !firstn_app, !skipn_app. replace (n - length l) with 0 by lia. cbn [firstn skipn].
          repeat split; auto. constructor; [now apply not_in_skipn|exact S]. }
      destruct C as (<- & <- & Ef & Hn). subst t t'. rewrite <- Ef in *.
      cbn [pairs map marks tk_kind tk_text]. rewrite Hk. fold (pairs rest) (pairs rest'). rewrite !pairs_texts, (lexed_text _ _ _ Hrest), (lexed_text _ _ _ Hrest'), (near_lfs _ _ Hn).
      f_equal. apply (IH (length (skipn n z))) with (4 := Hrest) (5 := Hrest'); auto.
      rewrite skipn_length. lia. }
  intros u u' off off' ts ts' Hu HL HL'. now apply (H (length u) u u' off off').
Qed.
Lemma same_lines_marks s s' : same_lines s s' -> marks (pairs (lex s)) = marks (pairs (lex s')).
Proof.
  intros H. destruct (same_lines_near s s' H) as (b & b' & u & u' & -> & -> & Fb & Fb' & Hu).
  destruct (gap_split _ _ _ (lex_lexed (b ++ u))) as (g & r & o & E & Fg & Hr & _).
  destruct (gap_split _ _ _ (lex_lexed (b' ++ u'))) as (g' & r' & o' & E' & Fg' & Hr' & _).
  rewrite E, E', !marks_gap by assumption. rewrite !skip_blanks in * by assumption.
  eapply near_marks; [apply near_skip, Hu|exact Hr|exact Hr'].
Qed.

(** * What the tokens of a tree are like *)
Definition brk (s : text) : Prop := exists nl rest, (nl = [10%N] \/ nl = [13%N; 10%N]) /\ s = nl ++ rest.
Definition blanky (s : text) : Prop := Forall (fun c => blankc c = true) s.
Definition unblank (s : text) : Prop := match s with c :: _ => blankc c = false | [] => True end.
Definition laid_at (k : kind) (s : text) (r : list (kind * text)) : Prop :=
  s <> [] /\ (is_trivia k = false -> ~ In 10%N s) /\ (k = TK_LINE_BREAK -> exists l, l <> [] /\ s = breaks l) /\ (k = TK_WHITESPACE -> blanky s) /\
  (brk (s ++ texts r) -> k = TK_LINE_BREAK) /\
  (forall w rest, s ++ texts r = w ++ rest -> w <> [] -> blanky w -> unblank rest -> k = TK_WHITESPACE /\ s = w).
Definition laid (ls : list (kind * text)) : Prop := forall l1 k s l2, ls = l1 ++ (k, s) :: l2 -> laid_at k s l2.

Lemma merges_split : forall ls ts, merges ls ts -> forall l1 l2, ls = l1 ++ l2 -> exists t1 t2, ts = t1 ++ t2 /\ merges l1 t1 /\ merges l2 t2.
Proof.
  induction 1 as [|k t ls ts Hk H IH|c t ls ts Hc Hl H IH]; intros l1 l2 E.
  - symmetry in E. apply app_eq_nil in E as [-> ->]. exists [], []. repeat split; constructor.
  - destruct l1 as [|x l1]; cbn [app] in E.
    + subst l2. exists [], (t :: ts). repeat split; constructor; assumption.
    + injection E as <- ->. destruct (IH l1 l2 eq_refl) as (t1 & t2 & -> & M1 & M2). exists (t :: t1), t2. repeat split; [|exact M2]. now constructor.
  - destruct l1 as [|x l1]; cbn [app] in E.
    + subst l2. exists [], (c :: t :: ts). repeat split; constructor; assumption.
    + injection E as <- ->. destruct (IH l1 l2 eq_refl) as (t1 & t2 & -> & M1 & M2). exists (c :: t :: t1), t2. repeat split; [|exact M2]. now constructor.
Qed.
Lemma merges_texts : forall ls ts, merges ls ts -> texts ls = List.concat (map tk_text ts).
Proof.
  induction 1 as [|k t ls ts Hk H IH|c t ls ts Hc Hl H IH]; [reflexivity| |]; rewrite texts_cons, IH; cbn [map List.concat snd]; [reflexivity|].
  now rewrite app_assoc.
Qed.
Lemma blanky_spaces w : blanky w <-> LexLines.spaces w.
Proof.
  unfold blanky, LexLines.spaces. split; apply Forall_impl; intros c.
  - apply blankc_cases.
  - unfold blankc. intros [-> | ->]; reflexivity.
Qed.
Lemma token_facts src t1 t t2 : lex src = t1 ++ t :: t2 ->
  tk_text t <> [] /\ (is_trivia (tk_kind t) = false -> ~ In 10%N (tk_text t)) /\
  (tk_kind t = TK_LINE_BREAK -> exists l, l <> [] /\ tk_text t = breaks l) /\ (tk_kind t = TK_WHITESPACE -> blanky (tk_text t)).
Proof.
  intros E. assert (I : In t (lex src)) by (rewrite E; apply in_elt).
  destruct (C01_lex_lossless src) as (_ & Ne & _). rewrite Forall_forall in Ne. split; [now apply Ne|].
  pose proof (lex_lexed src) as L. rewrite E in L. apply lexed_split in L as (s' & Es & Ns & L1 & L2).
  assert (T : is_trivia (tk_kind t) = true -> (tk_kind t = TK_WHITESPACE /\ blanky (tk_text t)) \/ (tk_kind t = TK_LINE_BREAK /\ exists l, l <> [] /\ tk_text t = breaks l)).
  { intros Tr. rewrite L2. exact (one_triv _ _ _ L1 Tr). }
  split; [|split].
  - intros Tr X. destruct (LexLines.lf_token src t1 t t2 LexLines.LF (or_introl eq_refl) E X) as [[K _]|[Te No]]; [rewrite K in Tr; discriminate Tr|].
    apply (No (PRe re_lb) TK_LINE_BREAK [LexLines.LF] LexLines.in_lb); [|apply LexLines.lb_one]. exists (List.concat (map tk_text t2)). cbn [map List.concat]. now rewrite Te.
  - intros K. destruct T as [[X _]|[_ X]]; [now rewrite K|congruence|exact X].
  - intros K. destruct T as [[_ X]|[X _]]; [now rewrite K|exact X|congruence].
Qed.
Lemma letter_not_blank src t : In t (lex src) -> letter_first (tk_text t) -> is_trivia (tk_kind t) = false.
Proof.
  intros I (c & w & E & C). destruct (is_trivia (tk_kind t)) eqn:K; [|reflexivity]. pose proof (LexLines.trivia_no_letter src t I K) as F. rewrite E in F.
  inversion F; subst. unfold LexLines.LF, LexLines.CR in *. lia.
Qed.
Lemma leaves_laid dbg src t errs : parse_src dbg src = OK (t, errs) -> laid (leaves t).
Proof.
  intros P l1 k s l2 E. pose proof (C08_leaves_refine_tokens _ _ _ _ P) as M.
  destruct (merges_split _ _ M l1 _ E) as (t1 & tr & Et & _ & Mr). pose proof (merges_texts _ _ Mr) as Tx. rewrite texts_cons in Tx. cbn [snd] in Tx.
  unfold laid_at. rewrite Tx. inversion Mr as [|k' tk ls ts Hk Hm E1 E2|c tk ls ts Hc Hl Hm E1 E2]; subst.
  - destruct (token_facts _ _ _ _ Et) as (F1 & F2 & F3 & F4). split; [exact F1|].
    assert (K : is_trivia k = is_trivia (tk_kind tk)) by (destruct Hk as [-> | [-> ->]]; reflexivity).
    assert (Kt : is_trivia (tk_kind tk) = true -> k = tk_kind tk) by (destruct Hk as [-> | [_ X]]; [reflexivity|rewrite X; discriminate]).
    split; [now rewrite K|]. split; [intros X; apply F3; subst k; destruct Hk as [Hk|[Hk _]]; [now symmetry|discriminate Hk]|].
    split; [intros X; apply F4; subst k; destruct Hk as [Hk|[Hk _]]; [now symmetry|discriminate Hk]|]. split.
    + intros (nl & rest & Hn & X). destruct (LexLines.break_token src t1 tk ts nl rest Hn Et X F1) as [Y _]. rewrite Kt; [exact Y|now rewrite Y].
    + intros w rest X Nw Bw U. destruct (LexLines.space_token src t1 tk ts w rest Et X Nw) as [Y Z]; [now apply blanky_spaces| |exact F1|].
      * intros c r -> C. cbn [unblank] in U. unfold blankc in U. destruct C as [-> | ->]; discriminate U.
      * split; [|exact Z]. rewrite Kt; [exact Y|now rewrite Y].
  - change (t1 ++ c :: tk :: ts) with (t1 ++ [c] ++ tk :: ts) in Et. pose proof Et as Et'. rewrite app_assoc in Et'. cbn [app] in Et.
    destruct (token_facts _ _ _ _ Et) as (F1 & F2 & _ & _). destruct (token_facts _ _ _ _ Et') as (G1 & G2 & _ & _).
    assert (Tt : is_trivia (tk_kind tk) = false). { eapply letter_not_blank; [|exact Hl]. rewrite Et'. apply in_elt. }
    split; [intros X; apply app_eq_nil in X as [X _]; contradiction|]. split; [|split; [discriminate|split; [discriminate|split]]].
    + intros _ X. apply in_app_iff in X as [X|X]; [|now apply G2]. apply F2; [now rewrite Hc|exact X].
    + intros (nl & rest & Hn & X). destruct (LexLines.break_token src t1 c (tk :: ts) nl rest Hn Et X F1) as [Y _]. congruence.
    + intros w rest X Nw Bw U. destruct (LexLines.space_token src t1 c (tk :: ts) w rest Et X Nw) as [Y Z]; [now apply blanky_spaces| |exact F1|congruence].
      intros d r -> C. cbn [unblank] in U. unfold blankc in U. destruct C as [-> | ->]; discriminate U.
Qed.
Lemma leaves_marks dbg src t errs : parse_src dbg src = OK (t, errs) -> marks (leaves t) = marks (pairs (lex src)).
Proof.
  intros P. pose proof (C08_leaves_refine_tokens _ _ _ _ P) as M. assert (A : forall x, In x (lex src) -> In x (lex src)) by auto. revert A M.
  generalize (lex src) at 1 3 4. intros ts A M. induction M as [|k t0 ls ts Hk H IH|c t0 ls ts Hc Hl H IH]; [reflexivity| |].
  - cbn [pairs map marks]. fold (pairs ts). rewrite IH by (intros x Hx; apply A; now right). f_equal. rewrite pairs_texts, <- (merges_texts _ _ H).
    destruct Hk as [-> | [-> ->]]; reflexivity.
  - cbn [pairs map marks]. fold (pairs ts). rewrite IH by (intros x Hx; apply A; right; now right).
    assert (It : In t0 (lex src)) by (apply A; right; now left). pose proof (letter_not_blank src t0 It Hl) as Tt.
    apply in_split in It as (t1 & t2 & It). destruct (token_facts _ _ _ _ It) as (_ & F & _). specialize (F Tt).
    rewrite Hc, Tt, texts_cons. cbn [is_trivia snd]. rewrite pairs_texts, <- (merges_texts _ _ H), lfs_app, (lfs_none _ F), app_length, repeat_app, <- app_assoc. reflexivity.
Qed.

Lemma breaks_cut : forall l a d, breaks l = a ++ 10%N :: d -> d <> [] -> brk d.
Proof.
  induction l as [|w l IH]; intros a d E N; [destruct a; discriminate E|]. unfold breaks in E. cbn [flat_map] in E. fold (breaks l) in E.
  assert (B : forall l, breaks l <> [] -> brk (breaks l)).
  { clear. intros [|[] l] N; [contradiction| |]; unfold breaks; cbn [flat_map]; [exists [13%N; 10%N]|exists [10%N]]; eexists; (split; [auto|reflexivity]). }
  destruct w; cbn [app] in E.
  - destruct a as [|x [|y a]]; cbn [app] in E; injection E.
    + intros _ X. discriminate X.
    + intros <- _. now apply B.
    + intros X _ _. exact (IH a d X N).
  - destruct a as [|x a]; cbn [app] in E; injection E; [intros <-; now apply B|intros X _; exact (IH a d X N)].
Qed.

(** * The tokens of the lines *)
Section Lines.
  Context {A : Type} (kd : A -> kind) (tx : A -> text).
  Definition pr (x : A) : kind * text := (kd x, tx x).
  Fixpoint solids (l : list A) : list (A * nat) :=
    match l with
    | [] => []
    | x :: r => (if is_trivia (kd x) then [] else [(x, lfs (texts (map pr r)))]) ++ solids r
    end.
  Lemma marks_cons x l : marks (map pr (x :: l)) = (if is_trivia (kd x) then [] else repeat (lfs (texts (map pr l))) (length (tx x))) ++ marks (map pr l).
  Proof. reflexivity. Qed.
  Lemma solids_same : forall l l', laid (map pr l) -> laid (map pr l') ->
    filter (fun x => negb (is_trivia (kd x))) l = filter (fun x => negb (is_trivia (kd x))) l' -> marks (map pr l) = marks (map pr l') ->
    solids l = solids l'.
  Proof.
    assert (Cut : forall x l, laid (map pr (x :: l)) -> laid (map pr l)).
    { intros x l H l1 k s l2 E. apply (H (pr x :: l1) k s l2). cbn [map app]. now rewrite E. }
    assert (Skip : forall l, laid (map pr l) -> (filter (fun x => negb (is_trivia (kd x))) l = [] /\ solids l = [] /\ marks (map pr l) = []) \/
      exists x r, filter (fun x => negb (is_trivia (kd x))) l = x :: filter (fun x => negb (is_trivia (kd x))) r /\ tx x <> [] /\
        solids l = (x, lfs (texts (map pr r))) :: solids r /\ marks (map pr l) = repeat (lfs (texts (map pr r))) (length (tx x)) ++ marks (map pr r) /\
        laid (map pr r) /\ length r < length l).
    { induction l as [|x l IH]; intros H; [left; auto|]. rewrite marks_cons. cbn [filter solids]. destruct (is_trivia (kd x)) eqn:T; cbn [negb app].
      - destruct (IH (Cut _ _ H)) as [I|(y & r & I1 & I2 & I3 & I4 & I5 & I6)]; [left; exact I|right]. exists y, r. cbn [List.length]. do 5 (split; [assumption|]). lia.
      - right. exists x, l. split; [reflexivity|]. split; [apply (H [] (kd x) (tx x) (map pr l)); reflexivity|]. split; [reflexivity|]. split; [reflexivity|].
        split; [now apply Cut in H|cbn [List.length]; lia]. }
    assert (G : forall n l l', length l <= n -> laid (map pr l) -> laid (map pr l') ->
      filter (fun x => negb (is_trivia (kd x))) l = filter (fun x => negb (is_trivia (kd x))) l' -> marks (map pr l) = marks (map pr l') -> solids l = solids l').
    { induction n as [n IH] using (well_founded_induction Wf_nat.lt_wf). intros l l' Hn H H' F M.
      destruct (Skip l H) as [(F1 & S1 & M1)|(x & r & F1 & N1 & S1 & M1 & L1 & Lt)]; destruct (Skip l' H') as [(F2 & S2 & M2)|(x' & r' & F2 & N2 & S2 & M2 & L2 & _)].
      - congruence.
      - rewrite F1, F2 in F. discriminate F.
      - rewrite F1, F2 in F. discriminate F.
      - rewrite F1, F2 in F. injection F as <- F. rewrite M1, M2 in M. rewrite S1, S2.
        assert (Q : lfs (texts (map pr r)) = lfs (texts (map pr r')) /\ marks (map pr r) = marks (map pr r')).
        { destruct (tx x) as [|c w]; [contradiction|]. cbn [length repeat app] in M. injection M as E M. split; [exact E|]. rewrite E in M. now apply app_inv_head in M. }
        destruct Q as [-> Q]. f_equal. apply (IH (length r)); auto. lia. }
    intros l l'. apply (G (length l)). lia.
  Qed.
  (** The first token on or behind a line, by the number of line feeds behind its start. *)
  Lemma solids_app a b : solids (a ++ b) = map (fun p => (fst p, snd p + lfs (texts (map pr b)))) (solids a) ++ solids b.
  Proof.
    induction a as [|x a IH]; [reflexivity|]. cbn [app solids]. rewrite IH, map_app, texts_app, lfs_app, map_app. rewrite <- app_assoc. f_equal.
    now destruct (is_trivia (kd x)).
  Qed.
  Definition first_solid (b : list A) : option A := find (fun x => negb (is_trivia (kd x))) b.
  Lemma first_solid_head b : first_solid b = option_map fst (hd_error (solids b)).
  Proof. induction b as [|x b IH]; [reflexivity|]. cbn [first_solid find solids]. destruct (is_trivia (kd x)); cbn [negb app]; [exact IH|reflexivity]. Qed.
  Definition opens (a : list A) : Prop := a = [] \/ exists a' y, a = a' ++ [y] /\ kd y = TK_LINE_BREAK.
  Lemma solids_below b : Forall (fun p => snd p <= lfs (texts (map pr b))) (solids b).
  Proof.
    induction b as [|x b IH]; [constructor|]. cbn [solids map]. rewrite texts_cons, lfs_app. apply Forall_app. split.
    - destruct (is_trivia (kd x)); constructor; [cbn [snd]; lia|constructor].
    - revert IH. apply Forall_impl. intros p Hp. lia.
  Qed.
  Lemma line_find a b : opens a -> laid (map pr (a ++ b)) ->
    first_solid b = option_map fst (find (fun p => Nat.leb (snd p) (lfs (texts (map pr b)))) (solids (a ++ b))).
  Proof.
    intros O L. rewrite first_solid_head, solids_app. set (n := lfs _).
    assert (F : find (fun p => Nat.leb (snd p) n) (map (fun p : A * nat => (fst p, snd p + n)) (solids a)) = None).
    { destruct O as [-> | (a' & y & -> & K)]; [reflexivity|]. 
      assert (Q : Forall (fun p => 0 < snd p) (solids (a' ++ [y]))).
      { rewrite solids_app. cbn [solids]. rewrite K. cbn [is_trivia app]. rewrite app_nil_r. apply Forall_forall. intros p Hp. apply in_map_iff in Hp as (q & <- & _). cbn [snd].
        assert (Y : laid_at (kd y) (tx y) (map pr b)). { apply (L (map pr a')). rewrite <- app_assoc, map_app. reflexivity. }
        destruct Y as (_ & _ & Y & _). destruct (Y K) as (bl & Nb & Eb). cbn [map]. rewrite texts_cons, lfs_app. unfold pr at 1. cbn [snd]. rewrite Eb.
        destruct bl as [|[] bl]; [contradiction| |]; unfold breaks; cbn [flat_map app lfs]; change (N.eqb LF 10) with true; cbn; lia. }
      revert Q. generalize (solids (a' ++ [y])). induction l as [|p l IH]; intros Q; [reflexivity|]. inversion Q; subst. cbn [map find snd].
      destruct (Nat.leb_spec (snd p + n) n); [lia|]. now apply IH. }
    assert (Fa : forall l m, find (fun p => Nat.leb (snd p) n) l = None -> find (fun p => Nat.leb (snd p) n) (l ++ m) = find (fun p : A * nat => Nat.leb (snd p) n) m).
    { induction l as [|p l IH]; intros m; [reflexivity|]. cbn [find app]. destruct (Nat.leb _ _); [discriminate|apply IH]. }
    rewrite Fa by exact F. pose proof (solids_below b) as S. fold n in S. destruct (solids b) as [|p l]; [reflexivity|]. inversion S; subst. cbn [find hd_error].
    apply Nat.leb_le in H1. now rewrite H1.
  Qed.
  (** A line of the source in the list of tokens: it starts with a token, or with a line break. *)
  Lemma line_tokens l a c : laid (map pr l) -> texts (map pr l) = a ++ c -> (a = [] \/ exists a', a = a' ++ [10%N]) ->
    (exists l1 l2, l = l1 ++ l2 /\ texts (map pr l1) = a /\ texts (map pr l2) = c /\ opens l1) \/ brk c.
  Proof.
    intros L. revert a. induction l as [|x l IH]; intros a E O.
    { symmetry in E. apply app_eq_nil in E as [-> ->]. left. exists [], []. repeat split. now left. }
    destruct O as [-> | (a0 & ->)]; [left; exists [], (x :: l); repeat split; [exact E|now left]|].
    cbn [map] in E. rewrite texts_cons in E. unfold pr at 1 in E. cbn [snd] in E. apply app_eq_app in E.
    assert (X : laid_at (kd x) (tx x) (map pr l)) by (apply (L []); reflexivity). destruct X as (N & F1 & F2 & F3 & _).
    assert (K : In 10%N (tx x) -> kd x = TK_LINE_BREAK).
    { intros I. destruct (is_trivia (kd x)) eqn:T; [|destruct (F1 eq_refl I)]. destruct (trivia_kinds _ T) as [K|K]; [|exact K]. exfalso.
      specialize (F3 K). unfold blanky in F3. rewrite Forall_forall in F3. specialize (F3 _ I). discriminate F3. }
    destruct E as (d & [[E1 E2]|[E1 E2]]).
    - destruct d as [|c0 d].
      + rewrite app_nil_r in E1. cbn [app] in E2. left. exists [x], l. split; [reflexivity|]. cbn [map]. rewrite texts_cons. unfold pr at 1, texts. cbn [snd map List.concat]. rewrite app_nil_r.
        split; [exact E1|]. split; [now symmetry|]. right. exists [], x. split; [reflexivity|]. apply K. rewrite E1. apply in_or_app. right. now left.
      + right. rewrite E2. assert (I : In 10%N (tx x)) by (rewrite E1; apply in_or_app; left; apply in_or_app; right; now left). destruct (F2 (K I)) as (bl & _ & Eb).
        rewrite Eb, <- app_assoc in E1. cbn [app] in E1. apply breaks_cut in E1 as (nl & rest & Hn & ->); [|discriminate]. exists nl, (rest ++ texts (map pr l)). split; [exact Hn|now rewrite app_assoc].
    - destruct d as [|c0 d].
      + rewrite app_nil_r in E1. left. exists [x], l. split; [reflexivity|]. cbn [map]. rewrite texts_cons. unfold pr at 1, texts. cbn [snd map List.concat]. rewrite app_nil_r.
        split; [now symmetry|]. split; [exact E2|]. right. exists [], x. split; [reflexivity|]. apply K. rewrite <- E1. apply in_or_app. right. now left.
      + assert (Cut : laid (map pr l)). { intros l1 k s l2 E. apply (L (pr x :: l1) k s l2). cbn [map app]. now rewrite E. }
        assert (Ed : exists d', c0 :: d = d' ++ [10%N]).
        { destruct (exists_last (l := c0 :: d)) as (d' & z & Ed); [discriminate|]. rewrite Ed, app_assoc in E1. apply app_inj_tail in E1 as [_ <-]. now exists d'. }
        destruct (IH Cut (c0 :: d) E2 (or_intror Ed)) as [(l1 & l2 & -> & T1 & T2 & O)|B]; [|now right]. left. exists (x :: l1), l2. split; [reflexivity|].
        cbn [map]. rewrite texts_cons. unfold pr at 1. cbn [snd]. split; [now rewrite E1, <- T1|]. split; [exact T2|].
        destruct O as [-> | (a' & y & -> & Ky)]; [discriminate T1|]. right. exists (x :: a'), y. auto.
  Qed.
  (** The blanks a line starts with. *)
  Lemma line_blanks l1 x l2 : laid (map pr (l1 ++ x :: l2)) -> kd x <> TK_LINE_BREAK ->
    forall w rest, texts (map pr (x :: l2)) = w ++ rest -> blanky w -> unblank rest ->
    (if kind_eqb (kd x) TK_WHITESPACE then tx x else []) = w /\ (brk rest -> w <> []).
  Proof.
    intros L K w rest E B U. assert (X : laid_at (kd x) (tx x) (map pr l2)) by (apply (L (map pr l1)); rewrite map_app; reflexivity). destruct X as (N & _ & _ & F3 & F4 & F5).
    cbn [map] in E. rewrite texts_cons in E. unfold pr at 1 in E. cbn [snd] in E. split.
    - destruct w as [|c w].
      + destruct (kind_eqb (kd x) TK_WHITESPACE) eqn:Kx; [|reflexivity]. exfalso. apply kind_eqb_eq in Kx. specialize (F3 Kx). destruct (tx x) as [|c s]; [contradiction|].
        inversion F3; subst. cbn [app] in E. subst rest. cbn [unblank] in U. congruence.
      + destruct (F5 (c :: w) rest E ltac:(discriminate) B U) as [Y ->]. now rewrite Y, kind_eqb_refl.
    - intros Br ->. apply K, F4. rewrite E. exact Br.
  Qed.
End Lines.

(** * Edits at the start of lines *)
Definition same_first (c c' : text) : Prop :=
  exists l, ~ In 10%N l /\ ((c = l /\ c' = l) \/ exists v v', c = l ++ 10%N :: v /\ c' = l ++ 10%N :: v').
Lemma same_first_refl c : same_first c c.
Proof.
  destruct (in_dec N.eq_dec 10%N c) as [I|I]; [|exists c; auto]. induction c as [|x c IH]; [destruct I|].
  destruct (N.eq_dec x 10) as [->|Nx]; [exists []; split; [intros []|right; exists c, c; split; reflexivity]|].
  destruct I as [I|I]; [congruence|]. destruct (IH I) as (l & Nl & C). exists (x :: l). split; [intros [X|X]; congruence|].
  destruct C as [[E _]|(v & v' & E & E')]; [left; split; cbn; congruence|right; exists v, v'; split; cbn; congruence].
Qed.
Lemma same_first_brk c c' : same_first c c' -> brk c -> brk c'.
Proof.
  intros (l & N & [[E E']|(v & v' & E & E')]) (nl & rest & Hn & Eb); rewrite Eb in E.
  - subst l. exfalso. apply N. destruct Hn as [-> | ->]; cbn; auto.
  - destruct l as [|x [|y l]]; cbn [app] in E.
    + exists [10%N], v'. auto.
    + destruct Hn as [-> | ->]; cbn [app] in E; injection E.
      * intros _ <-. destruct N. now left.
      * intros _ <-. exists [13%N; 10%N], v'. auto.
    + exfalso. apply N. destruct Hn as [-> | ->]; cbn [app] in E; injection E; intros; subst; cbn; auto.
Qed.
