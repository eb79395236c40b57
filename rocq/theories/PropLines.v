(** Property theorems about line endings: C33 and C34. *)
From Coq Require Import NArith String Bool Lia Arith List.
Import ListNotations.
From Verif Require Import Text Kind Regex Lexer LexerProofs PropLexer ParserApi Machine TreeSpec PropParser Red Typed Rule Rules Check Process DefaultConfig RedFacts PropProcess WalkSpec PropRun PropFits.
Local Open Scope list_scope.
Local Notation length := List.length (only parsing).

(** * What is meant *)
Definition CR : N := 13%N.
Definition LF : N := 10%N.
(** A sequence of line breaks, [true] for the Windows style. *)
Definition breaks (l : list bool) : text := flat_map (fun w : bool => if w then [CR; LF] else [LF]) l.
(** The bytes from [a] to [b] of [s] are a Windows line break. *)
Definition crlf_at (s : text) (a b : nat) : Prop :=
  exists pre post, s = pre ++ [CR; LF] ++ post /\ blen pre = a /\ b = a + 2.
(** All suggestions of the line-ending rule for one element. *)
Definition line_ending_edits (cf : config) (flag : bool) (e : elem) : list suggestion :=
  flat_map rs_suggestions (rl_token rule_line_ending (mkCtx cf flag) e).

(** * The matches *)
Lemma rlong_some r s m : rlong r s = Some m -> longest (rmatch r) s m.
Proof. unfold rlong. destruct (rlong_go_spec s r 0 None) as [[_ ->]|(k & H & ->)]; [discriminate|]. intros [= <-]. exact H. Qed.
Lemma rlong_none r s : rlong r s = None -> no_prefix (rmatch r) s.
Proof. unfold rlong. destruct (rlong_go_spec s r 0 None) as [[H _]|(k & H & ->)]; [intros _; exact H|discriminate]. Qed.
Lemma longest_rlong r s m : longest (rmatch r) s m -> rlong r s = Some m.
Proof.
  intros (L & M & X). destruct (rlong r s) as [k|] eqn:E.
  - apply rlong_some in E. destruct E as (L' & M' & X'). f_equal. apply Nat.le_antisymm; auto.
  - exfalso. apply rlong_none in E. exact (E m L M).
Qed.

Lemma rmatch_char c s : rmatch (RChar c) s <-> s = [c].
Proof.
  unfold RChar. split.
  - intros H. inversion H as [|cl x I| | | | |]; subst. unfold in_class, in_range in I. cbn [existsb fst snd] in I.
    rewrite orb_false_r in I. apply andb_prop in I. destruct I as [A B]. apply N.leb_le in A, B. f_equal. lia.
  - intros ->. constructor. unfold in_class, in_range. cbn [existsb fst snd]. rewrite !N.leb_refl. reflexivity.
Qed.
Lemma rmatch_seq a b s : rmatch (RSeq a b) s <-> exists x y, s = x ++ y /\ rmatch a x /\ rmatch b y.
Proof.
  split; [intros H; inversion H; subst; eauto 6|]. intros (x & y & -> & A & B). constructor; assumption.
Qed.
Lemma rmatch_alt a b s : rmatch (RAlt a b) s <-> rmatch a s \/ rmatch b s.
Proof. split; [intros H; inversion H; subst; auto|]. intros [H|H]; [apply MAltL|apply MAltR]; assumption. Qed.
Lemma rmatch_eps s : rmatch REps s <-> s = [].
Proof. split; [intros H; inversion H; reflexivity|]. intros ->. constructor. Qed.

Lemma unix_pattern s : rmatch (invalid_line_ending UnixLF) s <-> s = [CR; LF].
Proof.
  cbn [invalid_line_ending]. rewrite rmatch_seq. split.
  - intros (x & y & -> & A & B). apply rmatch_char in A, B. subst. reflexivity.
  - intros ->. exists [CR], [LF]. split; [reflexivity|]. split; apply rmatch_char; reflexivity.
Qed.
Lemma firstn_two (s : text) a b m : firstn m s = [a; b] -> exists r, s = a :: b :: r.
Proof.
  intros H. destruct m as [|[|m]]; destruct s as [|x [|y s]]; try discriminate H. cbn [firstn] in H.
  injection H as -> -> _. exists s. reflexivity.
Qed.
Lemma unix_hit s : rlong (invalid_line_ending UnixLF) (CR :: LF :: s) = Some 2.
Proof.
  apply longest_rlong. split; [cbn; lia|]. split; [apply unix_pattern; reflexivity|].
  intros m L H. apply unix_pattern in H. apply (f_equal (@List.length N)) in H. rewrite firstn_length in H. cbn in *. lia.
Qed.
Lemma unix_miss s : (forall r, s <> CR :: LF :: r) -> rlong (invalid_line_ending UnixLF) s = None.
Proof.
  intros N. destruct (rlong (invalid_line_ending UnixLF) s) as [m|] eqn:E; [|reflexivity].
  apply rlong_some in E. destruct E as (_ & H & _). apply unix_pattern, firstn_two in H. destruct H as [r ->].
  exfalso. exact (N r eq_refl).
Qed.
Lemma find_unix_hit off s :
  find_iter (invalid_line_ending UnixLF) 0 off (CR :: LF :: s)
  = (off, off + 2) :: find_iter (invalid_line_ending UnixLF) 0 (off + 2) s.
Proof.
  cbn [find_iter]. rewrite unix_hit. f_equal. f_equal. change (utf8_len CR) with 1. change (utf8_len LF) with 1. lia.
Qed.
Lemma find_unix_miss off c s : (forall r, c :: s <> CR :: LF :: r) ->
  find_iter (invalid_line_ending UnixLF) 0 off (c :: s) = find_iter (invalid_line_ending UnixLF) 0 (off + utf8_len c) s.
Proof. intros N. cbn [find_iter]. rewrite (unix_miss _ N). reflexivity. Qed.
Lemma starts_crlf (s : text) : {r | s = CR :: LF :: r} + {forall r, s <> CR :: LF :: r}.
Proof.
  destruct s as [|a [|b r]]; [right; discriminate|right; discriminate|].
  destruct (N.eq_dec a CR) as [->|A]; [|right; intros r' [= E _ _]; exact (A E)].
  destruct (N.eq_dec b LF) as [->|B]; [left; exists r; reflexivity|right; intros r' [= E _]; exact (B E)].
Qed.

Lemma find_unix_exact : forall n s off, length s <= n -> forall a b,
  In (off + a, off + b) (find_iter (invalid_line_ending UnixLF) 0 off s) <-> crlf_at s a b.
Proof.
  induction n as [|n IH]; intros s off L a b.
  - destruct s; [|cbn in L; lia]. split; [intros []|]. intros (pre & post & E & _). destruct pre; discriminate E.
  - destruct (starts_crlf s) as [[r ->]|N].
    + rewrite find_unix_hit. assert (Lr : length r <= n) by (cbn in L; lia).
      assert (S2 : crlf_at (CR :: LF :: r) a b <-> (a = 0 /\ b = 2) \/ exists a' b', a = 2 + a' /\ b = 2 + b' /\ crlf_at r a' b').
      { split.
        - intros (pre & post & E & A & B). destruct pre as [|x [|y pre]].
          + left. cbn in A. lia.
          + cbn [app] in E. injection E as _ E _. discriminate E.
          + right. cbn [app] in E. injection E as <- <- E. exists (blen pre), (blen pre + 2).
            change (blen (CR :: LF :: pre)) with (1 + (1 + blen pre)) in A. repeat split; [lia|lia|].
            exists pre, post. repeat split. exact E.
        - intros [[-> ->]|(a' & b' & -> & -> & pre & post & -> & <- & ->)].
          + exists [], r. repeat split.
          + exists (CR :: LF :: pre), post. split; [reflexivity|]. split; [reflexivity|]. lia. }
      rewrite S2. split.
      * intros [H|H]; [injection H as H1 H2; left; lia|]. right.
        assert (off + 2 <= off + a /\ off + 2 <= off + b).
        { assert (G : forall s skip o m, In m (find_iter (invalid_line_ending UnixLF) skip o s) -> o <= fst m /\ o <= snd m).
          { clear. induction s as [|c s IHs]; intros skip o m H; [destruct H|]. cbn [find_iter] in H.
            destruct skip as [|k]; [|apply IHs in H; lia].
            destruct (rlong _ (c :: s)) as [[|k]|]; [apply IHs in H; lia| |apply IHs in H; lia].
            destruct H as [<-|H]; [cbn [fst snd]; lia|apply IHs in H; lia]. }
          apply G in H. cbn [fst snd] in H. lia. }
        exists (a - 2), (b - 2). split; [lia|]. split; [lia|]. apply (IH r (off + 2) Lr).
        replace (off + 2 + (a - 2)) with (off + a) by lia. replace (off + 2 + (b - 2)) with (off + b) by lia. exact H.
      * intros [[-> ->]|(a' & b' & -> & -> & H)]; [left; f_equal; lia|]. right.
        apply (IH r (off + 2) Lr) in H. rewrite <- !Nat.add_assoc in H. exact H.
    + destruct s as [|c s].
      { split; [intros []|]. intros (pre & post & E & _). destruct pre; discriminate E. }
      rewrite (find_unix_miss _ _ _ N). assert (Lr : length s <= n) by (cbn in L; lia).
      assert (G : forall s skip o m, In m (find_iter (invalid_line_ending UnixLF) skip o s) -> o <= fst m /\ o <= snd m).
      { clear. induction s as [|c s IHs]; intros skip o m H; [destruct H|]. cbn [find_iter] in H.
        destruct skip as [|k]; [|apply IHs in H; lia].
        destruct (rlong _ (c :: s)) as [[|k]|]; [apply IHs in H; lia| |apply IHs in H; lia].
        destruct H as [<-|H]; [cbn [fst snd]; lia|apply IHs in H; lia]. }
      split.
      * intros H. pose proof (G _ _ _ _ H) as [G1 G2]. cbn [fst snd] in G1, G2.
        assert (K : crlf_at s (a - utf8_len c) (b - utf8_len c)).
        { apply (IH s (off + utf8_len c) Lr).
          replace (off + utf8_len c + (a - utf8_len c)) with (off + a) by lia.
          replace (off + utf8_len c + (b - utf8_len c)) with (off + b) by lia. exact H. }
        destruct K as (pre & post & -> & A & B). exists (c :: pre), post. split; [reflexivity|].
        change (blen (c :: pre)) with (utf8_len c + blen pre). lia.
      * intros (pre & post & E & A & B). destruct pre as [|x pre]; [exfalso; exact (N post E)|].
        cbn [app] in E. injection E as <- E. change (blen (c :: pre)) with (utf8_len c + blen pre) in A.
        assert (K : crlf_at s (blen pre) (blen pre + 2)) by (exists pre, post; repeat split; exact E).
        apply (IH s (off + utf8_len c) Lr) in K.
        replace (off + a) with (off + utf8_len c + blen pre) by lia.
        replace (off + b) with (off + utf8_len c + (blen pre + 2)) by lia. exact K.
Qed.

(** * Applying edits inside a text *)
Lemma edited_apply : forall edits pos t new, edited pos t edits new -> forall pre post, blen pre = pos ->
  apply_suggestions edits (pre ++ t ++ post) = Done (pre ++ new ++ post).
Proof.
  induction 1 as [pos t|pos keep old rest s edits new S1 S2 D IH]; intros pre post L; [reflexivity|].
  cbn [apply_suggestions]. specialize (IH (pre ++ keep ++ old) post).
  assert (E : blen (pre ++ keep ++ old) = sg_end s) by (rewrite !blen_app; lia).
  specialize (IH E). rewrite <- !app_assoc in IH. rewrite <- !app_assoc. rewrite IH. unfold replace_range.
  rewrite (proj2 (Nat.leb_le _ _)) by lia.
  assert (E1 : blen (pre ++ keep) = sg_start s) by (rewrite blen_app; lia).
  replace (pre ++ keep ++ old ++ new ++ post) with ((pre ++ keep) ++ old ++ new ++ post) by (rewrite <- app_assoc; reflexivity).
  rewrite <- E1, bsplit_app.
  replace ((pre ++ keep) ++ old ++ new ++ post) with ((pre ++ keep ++ old) ++ new ++ post) by (rewrite <- !app_assoc; reflexivity).
  rewrite <- E, bsplit_app. rewrite <- !app_assoc. reflexivity.
Qed.

(** * The rule *)
Lemma line_ending_edits_eq cf flag e : el_kind e = TK_LINE_BREAK ->
  map (fun s => (sg_start s, sg_end s, sg_text s)) (line_ending_edits cf flag e)
  = map (fun m => (el_start e + fst m, el_start e + snd m, line_ending_text (cf_line_ending cf)))
      (find_iter (invalid_line_ending (cf_line_ending cf)) 0 0 (el_text e)).
Proof.
  intros K. unfold line_ending_edits. cbn [rl_token rule_line_ending cx_config]. rewrite K. cbn [kind_eqb negb].
  replace (kind_eqb TK_LINE_BREAK TK_LINE_BREAK) with true by reflexivity. cbn [negb].
  induction (find_iter _ 0 0 (el_text e)) as [|m l IH]; [reflexivity|]. cbn [map flat_map].
  rewrite map_app, IH. reflexivity.
Qed.

(** [keep] has already been passed, the matches start after it. *)
Lemma unix_edited_from : forall l base k keep edits,
  map (fun s => (sg_start s, sg_end s, sg_text s)) edits
  = map (fun m : nat * nat => (base + fst m, base + snd m, [LF])) (find_iter (invalid_line_ending UnixLF) 0 (k + blen keep) (breaks l)) ->
  edited (base + k) (keep ++ breaks l) edits (keep ++ repeat LF (length l)).
Proof.
  induction l as [|w l IH]; intros base k keep edits H.
  - destruct edits; [constructor|discriminate H].
  - destruct w.
    + change (breaks (true :: l)) with (CR :: LF :: breaks l) in *. rewrite find_unix_hit in H.
      destruct edits as [|s edits]; [discriminate H|]. cbn [map fst snd] in H. injection H as H1 H2 H3 H4.
      change (keep ++ CR :: LF :: breaks l) with (keep ++ [CR; LF] ++ breaks l).
      replace (keep ++ repeat LF (length (true :: l))) with (keep ++ sg_text s ++ repeat LF (length l)) by (rewrite H3; reflexivity).
      apply edited_one; [lia|rewrite H1, H2; change (blen [CR; LF]) with 2; lia|].
      rewrite H2, <- (app_nil_l (breaks l)), <- (app_nil_l (repeat LF (length l))).
      apply IH. change (blen []) with 0. rewrite Nat.add_0_r. exact H4.
    + change (breaks (false :: l)) with (LF :: breaks l) in *.
      rewrite find_unix_miss in H by (intros r [= E]; discriminate E).
      change (keep ++ LF :: breaks l) with (keep ++ [LF] ++ breaks l).
      change (keep ++ repeat LF (length (false :: l))) with (keep ++ [LF] ++ repeat LF (length l)).
      rewrite !app_assoc. apply IH. rewrite blen_app. change (blen [LF]) with 1.
      change (utf8_len LF) with 1 in H. rewrite Nat.add_assoc. exact H.
Qed.

(** * Line-break tokens of a file *)
Lemma break_pattern s : rmatch re_lb s -> exists l, l <> [] /\ s = breaks l.
Proof.
  assert (One : forall x, rmatch (RAlt (RChar 10) (RSeq (RChar 13) (RChar 10))) x -> exists w, x = breaks [w]).
  { intros x H. apply rmatch_alt in H. destruct H as [H|H].
    - apply rmatch_char in H. exists false. exact H.
    - apply rmatch_seq in H. destruct H as (a & b & -> & A & B). apply rmatch_char in A, B. subst. exists true. reflexivity. }
  assert (Star : forall r x, rmatch r x -> r = RStar (RAlt (RChar 10) (RSeq (RChar 13) (RChar 10))) -> exists l, x = breaks l).
  { induction 1; intros E; try discriminate E.
    - exists []. reflexivity.
    - injection E as ->. destruct (One s0) as [w ->]; [assumption|]. destruct (IHrmatch2 eq_refl) as [l ->].
      exists (w :: l). cbn. rewrite app_nil_r. reflexivity. }
  unfold re_lb, RPlus. intros H. apply rmatch_seq in H. destruct H as (a & b & -> & A & B).
  destruct (One a A) as [w ->]. destruct (Star _ _ B eq_refl) as [l ->].
  exists (w :: l). split; [discriminate|]. cbn. rewrite app_nil_r. reflexivity.
Qed.

Lemma merges_kind ls ts : merges ls ts -> forall k x, In (k, x) ls -> k <> TK_WORD ->
  exists t, In t ts /\ tk_kind t = k /\ tk_text t = x.
Proof.
  induction 1 as [|k0 t ls ts D M IH|c t ls ts D L M IH]; intros k x H N; [destruct H| |].
  - destruct H as [H|H].
    + injection H as <- <-. exists t. split; [left; reflexivity|]. split; [|reflexivity].
      destruct D as [D|[D _]]; [symmetry; exact D|contradiction].
    + destruct (IH k x H N) as (u & A & B). exists u. split; [right; exact A|exact B].
  - destruct H as [H|H]; [injection H as <- _; contradiction|].
    destruct (IH k x H N) as (u & A & B). exists u. split; [do 2 right; exact A|exact B].
Qed.
Lemma break_entry : forall p, In (p, TK_LINE_BREAK) lex_table -> p = PRe re_lb.
Proof.
  assert (H : forallb (fun e => negb (kind_eqb (snd e) TK_LINE_BREAK)
                || match fst e with PRe r => match r with
                     | RSeq (RAlt (RClass a) (RSeq (RClass b) (RClass c))) (RStar (RAlt (RClass d) (RSeq (RClass e) (RClass f)))) =>
                       forallb (fun p => match fst p, snd p with [(x, y)], z => N.eqb x z && N.eqb y z | _, _ => false end)
                         [(a, 10%N); (b, 13%N); (c, 10%N); (d, 10%N); (e, 13%N); (f, 10%N)]
                     | _ => false end | _ => false end) lex_table = true) by (vm_compute; reflexivity).
  intros p I. rewrite forallb_forall in H. specialize (H _ I). cbn [fst snd] in H.
  replace (kind_eqb TK_LINE_BREAK TK_LINE_BREAK) with true in H by reflexivity. cbn [negb orb] in H.
  destruct p as [| |r]; try discriminate.
  destruct r as [| | |r1 r2| |]; try discriminate.
  destruct r1 as [| | | |[| |a| | |] r1|]; try discriminate. destruct r1 as [| | |[| |b| | |] [| |c| | |]| |]; try discriminate.
  destruct r2 as [| | | | |[| | | |[| |d| | |] r2|]]; try discriminate. destruct r2 as [| | |[| |e| | |] [| |f| | |]| |]; try discriminate.
  cbn [forallb fst snd] in H. repeat (apply andb_prop in H; destruct H as [?H H]).
  repeat match goal with X : match ?l with _ => _ end = true |- _ => destruct l as [|[? ?] [|]]; try discriminate X end.
  repeat match goal with X : (_ && _)%bool = true |- _ => apply andb_prop in X; destruct X as [?X X] end.
  repeat match goal with X : N.eqb _ _ = true |- _ => apply N.eqb_eq in X; subst end. reflexivity.
Qed.
Lemma elements_leaves t e : In e (elements t) -> is_node (el_tree e) = false -> In (el_kind e, el_text e) (leaves t).
Proof.
  intros H N. apply elements_within in H. unfold within in H.
  assert (G : forall p t0, In (el_kind e, el_text e) (leaves t0) -> In (el_kind e, el_text e) (leaves (rebuild t0 p))).
  { induction p as [|c p IH]; intros t0 I; cbn [rebuild]; [exact I|]. apply IH. cbn [leaves].
    apply in_flat_map. exists t0. split; [apply in_or_app; right; left; reflexivity|exact I]. }
  destruct H as [<- _]. apply G. destruct e as [[k s|k cs] o p]; [|discriminate N].
  left. unfold el_kind, el_text. cbn [el_tree tree_kind]. rewrite tree_text_leaf. reflexivity.
Qed.

(** Every line-break token of a parsed file is a sequence of line breaks. *)
Theorem C33_line_break_tokens : forall dbg src t errs e, parse_file dbg src = Done (t, errs) ->
  In e (elements t) -> is_node (el_tree e) = false -> el_kind e = TK_LINE_BREAK ->
  exists l, l <> [] /\ el_text e = breaks l.
Proof.
  intros dbg src t errs e P I N K. unfold parse_file in P. destruct (parse_src dbg src) as [[t' e']| |] eqn:Q; try discriminate.
  injection P as -> ->. apply elements_leaves in I; [|exact N].
  destruct (merges_kind _ _ (C08_leaves_refine_tokens _ _ _ _ Q) _ _ I) as (tk & A & B & C); [rewrite K; discriminate|].
  apply in_split in A. destruct A as (pre & post & A). rewrite K in B.
  destruct (C09_longest_match src pre tk post A) as [(U & _)|(p & k & w & (_ & D & _ & t1 & t2 & T & _) & _ & H)].
  - rewrite U in B. discriminate B.
  - assert (E : k = TK_LINE_BREAK /\ tk_text tk = w).
    { destruct H as [(_ & _ & H1 & H2)|[(_ & [[H _]|[H _]])|(_ & [[H _]|[H _]])]]; try (rewrite H in B; discriminate B).
      split; [congruence|exact H2]. }
    destruct E as [-> E]. assert (Ip : In (p, TK_LINE_BREAK) lex_table) by (rewrite T; apply in_or_app; right; left; reflexivity).
    apply break_entry in Ip. subst p. cbn [describes] in D. apply break_pattern in D. rewrite <- C, E. exact D.
Qed.

(** * C33 *)
Theorem C33_unix_line_endings_are_reported_exactly : forall cf flag e,
  cf_line_ending cf = UnixLF -> el_kind e = TK_LINE_BREAK ->
  (forall a b, (exists s, In s (line_ending_edits cf flag e) /\ sg_start s = el_start e + a /\ sg_end s = el_start e + b)
               <-> crlf_at (el_text e) a b) /\
  Forall (fun s => sg_text s = [LF]) (line_ending_edits cf flag e).
Proof.
  intros cf flag e U K. pose proof (line_ending_edits_eq cf flag e K) as E. rewrite U in E.
  split.
  - intros a b. rewrite <- (find_unix_exact (length (el_text e)) (el_text e) 0 (le_n _) a b). cbn [plus]. split.
    + intros (s & I & A & B). apply (in_map (fun s => (sg_start s, sg_end s, sg_text s))) in I. rewrite E in I.
      apply in_map_iff in I. destruct I as ([x y] & I & H). cbn [fst snd] in I. injection I as I1 I2 _.
      replace a with x by lia. replace b with y by lia. exact H.
    + intros H. apply (in_map (fun m => (el_start e + fst m, el_start e + snd m, line_ending_text UnixLF))) in H.
      rewrite <- E in H. apply in_map_iff in H. destruct H as (s & H & I). exists s. split; [exact I|].
      cbn [fst snd] in H. injection H as H1 H2 _. split; assumption.
  - apply Forall_forall. intros s I. apply (in_map (fun s => (sg_start s, sg_end s, sg_text s))) in I. rewrite E in I.
    apply in_map_iff in I. destruct I as (m & I & _). injection I as _ _ I. symmetry. exact I.
Qed.
(** Applying the suggestions leaves Unix line breaks only, as many as before. *)
Theorem C33_unix_line_endings_are_enforced : forall cf flag root e l,
  cf_line_ending cf = UnixLF -> el_kind e = TK_LINE_BREAK -> within root e -> el_text e = breaks l ->
  exists before after, tree_text root = before ++ breaks l ++ after /\ blen before = el_start e /\
    apply_suggestions (line_ending_edits cf flag e) (tree_text root) = Done (before ++ repeat LF (length l) ++ after).
Proof.
  intros cf flag root e l U K W T. destruct (within_text root e W) as (a & b & E & L). rewrite T in E.
  exists a, b. split; [exact E|]. split; [exact L|]. rewrite E. apply (edited_apply _ (el_start e)); [|exact L].
  pose proof (line_ending_edits_eq cf flag e K) as M. rewrite U, T in M.
  pose proof (unix_edited_from l (el_start e) 0 [] _ M) as D. rewrite Nat.add_0_r in D. exact D.
Qed.

(** * C34 *)
Lemma windows_pattern_LF s : exists k, rlong (invalid_line_ending WindowsCRLF) (LF :: s) = Some (S k).
Proof.
  assert (M : rmatch (invalid_line_ending WindowsCRLF) (firstn 1 (LF :: s))).
  { cbn [firstn invalid_line_ending]. apply rmatch_seq. exists [], [LF]. split; [reflexivity|].
    split; [apply rmatch_alt; right; constructor|apply rmatch_char; reflexivity]. }
  assert (L : 1 <= length (LF :: s)) by (cbn; lia).
  destruct (rlong (invalid_line_ending WindowsCRLF) (LF :: s)) as [m|] eqn:E.
  - apply rlong_some in E. destruct E as (_ & _ & X). specialize (X 1 L M). destruct m; [lia|]. exists m. reflexivity.
  - exfalso. apply rlong_none in E. exact (E 1 L M).
Qed.
Lemma windows_reported : forall l off, l <> [] -> find_iter (invalid_line_ending WindowsCRLF) 0 off (breaks l) <> [].
Proof.
  assert (G : forall s off, find_iter (invalid_line_ending WindowsCRLF) 0 off (LF :: s) <> []).
  { intros s off. cbn [find_iter]. destruct (windows_pattern_LF s) as [k ->]. discriminate. }
  intros [|[|] l] off N; [contradiction| |apply G].
  change (breaks (true :: l)) with (CR :: LF :: breaks l). pose proof (G (breaks l) (off + utf8_len CR)) as H.
  remember (LF :: breaks l) as s. cbn [find_iter].
  destruct (rlong _ (CR :: s)) as [[|k]|]; [exact H|discriminate|exact H].
Qed.

(** With windows_CRLF every line break is reported, also when all of them already are CRLF. *)
Theorem C34_every_line_break_is_reported : forall cf flag e l,
  cf_line_ending cf = WindowsCRLF -> el_kind e = TK_LINE_BREAK -> l <> [] -> el_text e = breaks l ->
  line_ending_edits cf flag e <> [].
Proof.
  intros cf flag e l U K N T H. pose proof (line_ending_edits_eq cf flag e K) as M. rewrite H, U, T in M.
  pose proof (windows_reported l 0 N) as R. destruct (find_iter _ 0 0 (breaks l)); [exact (R eq_refl)|discriminate M].
Qed.

Definition line_break_leaf (s : text) : elem := root_elem (Leaf TK_LINE_BREAK s).
(** Conforming text is reported, and the suggestion spoils it. *)
Theorem C34_conforming_text_is_not_reported_refuted :
  ~ (forall cf flag e n, cf_line_ending cf = WindowsCRLF -> el_kind e = TK_LINE_BREAK -> el_text e = breaks (repeat true n) ->
     line_ending_edits cf flag e = []).
Proof.
  intros H. specialize (H crlf_config false (line_break_leaf (breaks [true])) 1 eq_refl eq_refl eq_refl). vm_compute in H. discriminate H.
Qed.
(** The number of line breaks is not kept. *)
Theorem C34_windows_line_endings_are_enforced_refuted :
  ~ (forall cf flag e l, cf_line_ending cf = WindowsCRLF -> el_kind e = TK_LINE_BREAK -> el_start e = 0 -> el_text e = breaks l ->
     apply_suggestions (line_ending_edits cf flag e) (el_text e) = Done (breaks (repeat true (length l)))).
Proof.
  intros H. specialize (H crlf_config false (line_break_leaf (breaks [false; false])) [false; false] eq_refl eq_refl eq_refl eq_refl).
  vm_compute in H. discriminate H.
Qed.
(** What does hold: a single Unix line break becomes a Windows one. *)
Theorem C34_windows_line_endings_are_enforced_partial : forall cf flag root e,
  cf_line_ending cf = WindowsCRLF -> el_kind e = TK_LINE_BREAK -> within root e -> el_text e = [LF] ->
  exists before after, tree_text root = before ++ [LF] ++ after /\ blen before = el_start e /\
    apply_suggestions (line_ending_edits cf flag e) (tree_text root) = Done (before ++ [CR; LF] ++ after).
Proof.
  intros cf flag root e U K W T. destruct (within_text root e W) as (a & b & E & L). rewrite T in E.
  exists a, b. split; [exact E|]. split; [exact L|]. rewrite E. apply (edited_apply _ (el_start e)); [|exact L].
  pose proof (line_ending_edits_eq cf flag e K) as M. rewrite U, T in M.
  replace (find_iter (invalid_line_ending WindowsCRLF) 0 0 [LF]) with [(0, 1)] in M by (vm_compute; reflexivity).
  destruct (line_ending_edits cf flag e) as [|s [|s' l]]; [discriminate M| |discriminate M].
  cbn [map fst snd] in M. injection M as M1 M2 M3.
  replace [CR; LF] with ([] ++ sg_text s ++ []) by (rewrite M3; reflexivity).
  apply (edited_one (el_start e) [] [LF] []); [cbn; lia|change (blen [LF]) with 1; lia|constructor].
Qed.
(** And a successful --fix under windows_CRLF leaves no line break the rule looks at. *)
Theorem C34_fix_succeeds_only_without_line_breaks : forall dbg sort cf fc rs fc' rs' dirty i,
  cf_line_ending cf = WindowsCRLF -> In rule_line_ending (fc_rules fc) ->
  consistent dbg cf fc rs ->
  iteratively_apply_suggestions dbg sort cf fc rs = Ok (fc', rs', dirty, i) ->
  forall e, In e (elements (fc_tree fc')) -> is_node (el_tree e) = false -> el_kind e = TK_LINE_BREAK ->
    seen run_hides e = false \/ switched_off (txt "line-ending"%string) e = true.
Proof.
  intros dbg sort cf fc rs fc' rs' dirty i U R C E e I N K.
  destruct (C24_fix_loop_is_bounded_and_honest dbg sort cf fc rs fc' rs' dirty i C E) as (_ & _ & (C1 & C2) & S & Rs & _).
  destruct (seen run_hides e) eqn:Se; [|left; reflexivity]. right.
  destruct (switched_off (txt "line-ending"%string) e) eqn:So; [reflexivity|]. exfalso.
  assert (NR : fc_rules fc' <> []) by (rewrite Rs; intros Z; rewrite Z in R; exact R).
  destruct (C15_ignore_directives_have_exact_scope _ _ _ _ C2 NR) as (roots & flag & _ & ->).
  destruct (C33_line_break_tokens _ _ _ _ e C1 I N K) as (l & Nl & T).
  pose proof (C34_every_line_break_is_reported cf (flag e) e l U K Nl T) as H. unfold line_ending_edits in H.
  assert (G : exists r, In r (rl_token rule_line_ending (mkCtx cf (flag e)) e) /\ rs_suggestions r <> []).
  { induction (rl_token rule_line_ending (mkCtx cf (flag e)) e) as [|r rl IH]; [contradiction|]. cbn [flat_map] in H.
    destruct (rs_suggestions r) eqn:Q; [destruct (IH H) as (x & A & B); exists x; split; [right; exact A|exact B]|].
    exists r. split; [left; reflexivity|]. rewrite Q. discriminate. }
  destruct G as (r & Hr & Q). destruct (rs_suggestions r) as [|sg q] eqn:Qs; [contradiction|].
  assert (X : In (rs_rule r, sg) (rule_suggestions (roots ++ flat_map (fun e0 => checked cf (fc_rules fc') (flag e0) e0) (filter (seen run_hides) (elements (fc_tree fc')))))).
  { unfold rule_suggestions. apply in_flat_map. exists r. split.
    - apply in_or_app. right. apply in_flat_map. exists e. split; [apply filter_In; split; assumption|].
      unfold checked. apply in_flat_map. exists rule_line_ending. split; [rewrite Rs; exact R|].
      change (rl_name rule_line_ending) with (txt "line-ending"%string). rewrite So, N. exact Hr.
    - rewrite Qs. left. reflexivity. }
  rewrite S in X. exact X.
Qed.

(** * Concrete cases *)
Example C33_case :
  match parse_file true (txt "a"%string ++ breaks [true; false; true] ++ txt "b"%string) with
  | Done (t, _) =>
    match find (fun e => kind_eqb (el_kind e) TK_LINE_BREAK) (elements t) with
    | Some e =>
      cf_line_ending default_config = UnixLF /\ el_text e = breaks [true; false; true] /\
      map (fun s => (sg_start s, sg_end s)) (line_ending_edits default_config false e) = [(1, 3); (4, 6)] /\
      apply_suggestions (line_ending_edits default_config false e) (tree_text t) = Done (txt "a"%string ++ [LF; LF; LF] ++ txt "b"%string)
    | None => False
    end
  | Crashed => False
  end.
Proof. vm_compute. repeat split. Qed.
Example C34_case :
  match parse_file true (txt "a"%string ++ [LF] ++ txt "b"%string) with
  | Done (t, _) =>
    match find (fun e => kind_eqb (el_kind e) TK_LINE_BREAK) (elements t) with
    | Some e =>
      cf_line_ending crlf_config = WindowsCRLF /\ el_text e = [LF] /\
      apply_suggestions (line_ending_edits crlf_config false e) (tree_text t) = Done (txt "a"%string ++ [CR; LF] ++ txt "b"%string)
    | None => False
    end
  | Crashed => False
  end.
Proof. vm_compute. repeat split. Qed.

Print Assumptions C33_line_break_tokens.
Print Assumptions C33_unix_line_endings_are_reported_exactly.
Print Assumptions C33_unix_line_endings_are_enforced.
Print Assumptions C34_every_line_break_is_reported.
Print Assumptions C34_conforming_text_is_not_reported_refuted.
Print Assumptions C34_windows_line_endings_are_enforced_refuted.
Print Assumptions C34_windows_line_endings_are_enforced_partial.
Print Assumptions C34_fix_succeeds_only_without_line_breaks.
