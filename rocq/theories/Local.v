(** Two files with the same first tokens are parsed alike up to the last of them.  Machinery for C83. *)
From Coq Require Import NArith String Bool Arith Lia List.
Import ListNotations.
From Verif Require Import Text Kind Regex Lexer LexerProofs ParserApi GrammarExpr GrammarTags GrammarHtml Machine Simulation.
From Verif Require ErrOrder PropParser.
Local Notation length := List.length (only parsing).
Local Open Scope list_scope.
Local Open Scope prog_scope.

(** * Trivia *)
Lemma nontriv_app p x : nontriv (p ++ x) = nontriv p ++ nontriv x.
Proof. apply filter_app. Qed.
Lemma drop_app p x : nontriv p <> [] -> drop_trivia (p ++ x) = drop_trivia p ++ x.
Proof.
  induction p as [|t p IH]; intros H; [contradiction H; reflexivity|]. cbn [app drop_trivia]. destruct (is_trivia (tk_kind t)) eqn:E; [|reflexivity].
  apply IH. unfold nontriv in H. cbn [filter] in H. rewrite E in H. exact H.
Qed.
Lemma nontriv_drop p : nontriv (drop_trivia p) = nontriv p.
Proof. induction p as [|t p IH]; [reflexivity|]. cbn [drop_trivia]. destruct (is_trivia (tk_kind t)) eqn:E; [|reflexivity]. rewrite IH. unfold nontriv. cbn [filter]. now rewrite E. Qed.
Lemma drop_head p : match drop_trivia p with t :: _ => is_trivia (tk_kind t) = false | [] => True end.
Proof. induction p as [|t p IH]; [exact I|]. cbn [drop_trivia]. destruct (is_trivia (tk_kind t)) eqn:E; [exact IH|exact E]. Qed.

(** * What a look ahead can see *)
Definition ample (p : list token) : Prop := 2 <= length (nontriv p).
(** The answer depends on the first two significant tokens. *)
Definition lf {B : Set} (f : list token -> B) : Prop :=
  forall t p x y, is_trivia (tk_kind t) = false -> ample (t :: p) -> f ((t :: p) ++ x) = f ((t :: p) ++ y).
Lemma ample_second t p : ample (t :: p) -> exists u l, p = u :: l.
Proof. unfold ample, nontriv. destruct p as [|u l]; [|eauto]. cbn [filter]. destruct (negb _); cbn; lia. Qed.
Lemma ample_next t p : is_trivia (tk_kind t) = false -> ample (t :: p) -> exists u l, nontriv p = u :: l.
Proof. unfold ample, nontriv. cbn [filter]. intros ->. cbn [negb List.length]. destruct (filter _ p) as [|u l]; [cbn; lia|eauto]. Qed.
Lemma lf_kind : lf l_kind. Proof. intros t p x y _ _. reflexivity. Qed.
Lemma lf_hd : lf (@hd_error token). Proof. intros t p x y _ _. reflexivity. Qed.
Lemma lf_at k : lf (l_at k). Proof. intros t p x y _ _. reflexivity. Qed.
Lemma lf_at_set k : lf (l_at_set k). Proof. intros t p x y _ _. reflexivity. Qed.
Lemma lf_at_end : lf l_at_end. Proof. intros t p x y _ _. reflexivity. Qed.
Lemma lf_nth n : n <= 1 -> lf (fun r => nth_error r n).
Proof. intros L t p x y _ H. destruct (ample_second _ _ H) as (u & l & ->). destruct n as [|[|n]]; [reflexivity|reflexivity|lia]. Qed.
Lemma lf_next : lf l_next_kind.
Proof. intros t p x y E H. destruct (ample_next _ _ E H) as (u & l & N). cbn [app l_next_kind]. rewrite !nontriv_app, N. reflexivity. Qed.
Lemma lf_twig_tag k : lf (l_twig_tag k).
Proof. intros t p x y E H. unfold l_twig_tag. now rewrite (lf_next t p x y E H), (lf_at_set _ t p x y E H). Qed.
Lemma lf_termination : lf l_termination_tag.
Proof. intros t p x y E H. unfold l_termination_tag. now rewrite (lf_next t p x y E H), (lf_at_set _ t p x y E H). Qed.
Lemma lf_non_word : lf l_less_than_non_word.
Proof. intros t p x y E H. destruct (ample_second _ _ H) as (u & l & ->). reflexivity. Qed.
Lemma lf_text_end : lf l_html_text_end.
Proof. intros t p x y E H. unfold l_html_text_end. now rewrite (lf_non_word t p x y E H), !(lf_at_set _ t p x y E H). Qed.
Lemma lf_attr : lf l_attr_text.
Proof. intros t p x y E H. destruct (ample_second _ _ H) as (u & l & ->). reflexivity. Qed.
Lemma lf_content s : length s <= 2 -> lf (l_following_content s).
Proof.
  intros L t p x y E H. destruct (ample_next _ _ E H) as (u & l & N). cbn [app l_following_content]. unfold nontriv in *. cbn [filter]. rewrite E. cbn [negb]. rewrite !filter_app, N.
  destruct s as [|[k c] [|[k' c'] [|]]]; cbn [List.length] in L; try lia; cbn [app l_follow]; try reflexivity; repeat match goal with |- context [if ?b then _ else _] => destruct b end; reflexivity.
Qed.
Lemma lf_following s : length s <= 2 -> lf (l_following s).
Proof. intros L. unfold l_following. apply lf_content. rewrite map_length. exact L. Qed.
Ltac lf1 := first [apply lf_kind | apply lf_hd | apply lf_at | apply lf_at_set | apply lf_at_end | apply lf_nth | apply lf_twig_tag | apply lf_termination | apply lf_non_word | apply lf_text_end | apply lf_attr | apply lf_following | apply lf_content].
Ltac lfs := first [solve [lf1; assumption] | solve [lf1] |
  let E := fresh in let H := fresh in intros ? ? ? ? E H; cbv beta; repeat lazymatch goal with |- orb _ _ = orb _ _ => apply (f_equal2 orb) | |- andb _ _ = andb _ _ => apply (f_equal2 andb) | |- negb _ = negb _ => apply (f_equal negb) end; (lf1; [exact E|exact H])].

Section Run.
  Context (dbg : bool) (A B : list token) (M N : nat).
  Hypothesis Margin : nontriv B <> [].
  Definition good (x : list token) : Prop := forall u, In u (B ++ x) -> M <= tk_start u.
  Definition far (e : perror) : Prop := M <= err_start e.
  (** The two parses are in the same state; [p] is what is left of the common tokens. *)
  Definition agree (x y : list token) (s1 s2 : cstate) : Prop :=
    exists p q ev op es, A ++ B = q ++ p /\ s1 = mkC (A ++ B ++ x) (p ++ x) ev op es /\ s2 = mkC (A ++ B ++ y) (p ++ y) ev op es.
  (** The cursor is past [A]. *)
  Definition near (x : list token) (s : cstate) : Prop := c_toks s = A ++ B ++ x /\ exists q, B ++ x = q ++ drop_trivia (c_rest s).
  (** The two parses have said the same about [A], and are done with it. *)
  Definition lost (x y : list token) (s1 s2 : cstate) : Prop :=
    near x s1 /\ near y s2 /\ exists E f1 f2, c_errs s1 = E ++ f1 /\ c_errs s2 = E ++ f2 /\ Forall far f1 /\ Forall far f2.

  Lemma drop_tail q r : exists q', drop_trivia (q ++ r) = q' ++ drop_trivia r.
  Proof.
    induction q as [|t q IH]; [now exists []|]. cbn [app drop_trivia]. destruct (is_trivia (tk_kind t)); [exact IH|]. destruct (ErrOrder.drop_suffix r) as [l L]. exists (t :: q ++ l). cbn [app]. now rewrite <- app_assoc, <- L.
  Qed.
  Lemma few q p x : A ++ B = q ++ p -> ~ ample p -> exists r, B ++ x = r ++ drop_trivia (p ++ x).
  Proof.
    intros H Few. apply app_eq_app in H as [l [[E1 E2]|[E1 E2]]].
    - destruct (nontriv l) as [|u l'] eqn:El.
      + destruct (drop_tail l (B ++ x)) as [r R]. destruct (ErrOrder.drop_suffix (B ++ x)) as [r' R']. exists r'. rewrite E2, <- app_assoc. rewrite R' at 1. f_equal.
        clear - El. induction l as [|t l IH]; [reflexivity|]. unfold nontriv in El. cbn [filter] in El. cbn [app drop_trivia]. destruct (is_trivia (tk_kind t)); [exact (IH El)|discriminate].
      + contradiction Few. unfold ample. rewrite E2, nontriv_app, El, app_length. cbn [List.length]. destruct (nontriv B) as [|v w]; [contradiction Margin; reflexivity|cbn [List.length]; lia].
    - destruct (ErrOrder.drop_suffix (p ++ x)) as [r R]. exists (l ++ r). now rewrite E2, <- !app_assoc, <- R.
  Qed.
  Lemma near_rest x s t : near x s -> good x -> In t (drop_trivia (c_rest s)) -> M <= tk_start t.
  Proof. intros [_ [q E]] G I. apply G. rewrite E. apply in_or_app. now right. Qed.
  Lemma near_last x s t l : near x s -> good x -> rev (c_toks s) = t :: l -> M <= tk_start t.
  Proof.
    intros [E _] G R. apply G. assert (B ++ x <> []) as NE. { intros Z. apply app_eq_nil in Z as [Z _]. apply Margin. now rewrite Z. }
    rewrite E, rev_app_distr in R. destruct (rev (B ++ x)) as [|u l'] eqn:Z; [contradiction NE; rewrite <- (rev_involutive (B ++ x)), Z; reflexivity|].
    cbn [app] in R. injection R as -> _. apply in_rev. rewrite Z. now left.
  Qed.
  Lemma near_move x s s' f : near x s -> c_toks s' = c_toks s -> (exists q, c_rest s = q ++ c_rest s') -> c_errs s' = c_errs s ++ f -> Forall far f ->
    near x s' /\ exists f, c_errs s' = c_errs s ++ f /\ Forall far f.
  Proof. intros [E [q Q]] T [r R] F G. split; [|now exists f]. split; [congruence|]. rewrite R in Q. destruct (drop_tail r (c_rest s')) as [r' R']. rewrite R' in Q. exists (q ++ r'). rewrite Q. apply app_assoc. Qed.
  Definition about {X : Set} (o : op X) : bool := match o with AddErr _ (Some _) => true | _ => false end.
  Definition looks {X : Set} (o : op X) : bool := match o with Look => true | _ => false end.
  Lemma late_step (X : Set) (o : op X) x s b s' : good x -> near x s -> about o = false -> cstep dbg X o s = OK (b, s') ->
    near x s' /\ exists f, c_errs s' = c_errs s ++ f /\ Forall far f.
  Proof.
    intros G V O E. destruct (ErrOrder.drop_suffix (c_rest s)) as [p P].
    assert (Stay : forall s', c_toks s' = c_toks s -> c_errs s' = c_errs s -> c_rest s' = c_rest s -> near x s' /\ exists f, c_errs s' = c_errs s ++ f /\ Forall far f).
    { intros s1 A1 A2 A3. apply (near_move x s s1 []); auto; [rewrite A3; now exists []|now rewrite app_nil_r]. }
    assert (Drop : forall s', c_toks s' = c_toks s -> c_errs s' = c_errs s -> (exists q, drop_trivia (c_rest s) = q ++ c_rest s') -> near x s' /\ exists f, c_errs s' = c_errs s ++ f /\ Forall far f).
    { intros s1 A1 A2 [q A3]. apply (near_move x s s1 []); auto; [rewrite P, A3; exists (p ++ q); apply app_assoc|now rewrite app_nil_r]. }
    destruct o as [| |site as_|n kd| |e tok| |m kd|c|q|site f]; cbn [cstep] in E.
    - injection E as <- <-. apply Drop; try reflexivity. now exists [].
    - injection E as <- <-. apply Stay; reflexivity.
    - destruct (drop_trivia (c_rest s)) as [|t ts] eqn:Dr; [discriminate|]. injection E as <- <-. apply Drop; try reflexivity. now exists [t].
    - destruct (Nat.eqb _ n); [|discriminate]. injection E as <- <-. apply Drop; try reflexivity. exists (firstn n (drop_trivia (c_rest s))). symmetry. apply firstn_skipn.
    - injection E as <- <-. apply Stay; reflexivity.
    - destruct tok as [tok|]; [discriminate O|]. destruct (error_here _ _ e) as [err|q|] eqn:Er; try discriminate. cbn [rbind] in E. injection E as <- <-.
      assert (Fa : far err).
      { unfold error_here in Er. destruct (drop_trivia (c_rest s)) as [|t l] eqn:Dr.
        - destruct (rev (c_toks s)) as [|t r] eqn:L; [discriminate|]. injection Er as <-. exact (near_last x s t r V G L).
        - injection Er as <-. apply (near_rest x s t V G). rewrite Dr. now left. }
      apply (near_move x s _ [err]); try reflexivity; auto. exists p. exact P.
    - injection E as <- <-. apply Stay; reflexivity.
    - unfold c_complete in E. destruct (dbg && _)%bool; [discriminate|]. destruct (nth_error _ m); [|discriminate]. destruct (dbg && _)%bool; [discriminate|]. injection E as <- <-. apply Stay; reflexivity.
    - unfold c_precede in E. unfold c_start in E; cbn [c_events] in E. match type of E with context [nth_error ?l c] => destruct (nth_error l c) as [[k0 fp| | | | |]|]; try discriminate end. injection E as <- <-. apply Stay; reflexivity.
    - discriminate.
    - destruct dbg; [destruct (f _); [|discriminate]|]; injection E as <- <-; [apply Drop; try reflexivity; now exists []|apply Stay; reflexivity].
  Qed.
  (** Two parses in the same state with too little in common ahead. *)
  Lemma agree_few x y q p ev op es : A ++ B = q ++ p -> ~ ample p ->
    near x (mkC (A ++ B ++ x) (p ++ x) ev op es) /\ near y (mkC (A ++ B ++ y) (p ++ y) ev op es).
  Proof. intros E Few. split; (split; [reflexivity|]); cbn [c_rest]; exact (few q p _ E Few). Qed.
  Lemma both_late x y s1 s2 s1' s2' : c_errs s1 = c_errs s2 -> (near x s1' /\ exists f, c_errs s1' = c_errs s1 ++ f /\ Forall far f) -> (near y s2' /\ exists f, c_errs s2' = c_errs s2 ++ f /\ Forall far f) -> lost x y s1' s2'.
  Proof. intros E (H1 & f1 & F1 & G1) (H2 & f2 & F2 & G2). split; [exact H1|]. split; [exact H2|]. exists (c_errs s1), f1, f2. rewrite E at 2. auto. Qed.
  Lemma lost_late x y s1 s2 s1' s2' : lost x y s1 s2 -> (near x s1' /\ exists f, c_errs s1' = c_errs s1 ++ f /\ Forall far f) -> (near y s2' /\ exists f, c_errs s2' = c_errs s2 ++ f /\ Forall far f) -> lost x y s1' s2'.
  Proof.
    intros (_ & _ & E & e1 & e2 & E1 & E2 & L1 & L2) (H1 & f1 & F1 & G1) (H2 & f2 & F2 & G2). split; [exact H1|]. split; [exact H2|]. exists E, (e1 ++ f1), (e2 ++ f2).
    rewrite F1, F2, E1, E2, <- !app_assoc. repeat split; auto; now apply Forall_app.
  Qed.
  Lemma ample_dec p : {ample p} + {~ ample p}.
  Proof. apply le_dec. Qed.
  Lemma ample_drop p : ample p -> exists t p', drop_trivia p = t :: p' /\ is_trivia (tk_kind t) = false /\ ample (t :: p') /\ forall x, drop_trivia (p ++ x) = t :: p' ++ x.
  Proof.
    intros Am. pose proof (drop_head p) as Hd. destruct (drop_trivia p) as [|t p'] eqn:E.
    - exfalso. unfold ample in Am. rewrite <- nontriv_drop, E in Am. cbn in Am. lia.
    - exists t, p'. split; [reflexivity|]. split; [exact Hd|]. split; [unfold ample in *; now rewrite <- E, nontriv_drop|]. intros x. rewrite drop_app, E; [reflexivity|]. intros Z. unfold ample in Am. rewrite Z in Am. cbn in Am. lia.
  Qed.
  Lemma rel_step (X : Set) (o : op X) x y s1 s2 b1 b2 s1' s2' : good x -> good y -> agree x y s1 s2 -> about o = false -> looks o = false ->
    cstep dbg X o s1 = OK (b1, s1') -> cstep dbg X o s2 = OK (b2, s2') -> (b1 = b2 /\ agree x y s1' s2') \/ lost x y s1' s2'.
  Proof.
    intros Gx Gy (p & q & ev & op & es & Q & -> & ->) O Lk E1 E2. destruct (ample_dec p) as [Am|Few].
    2:{ right. destruct (agree_few x y q p ev op es Q Few) as [V1 V2]. exact (both_late x y _ _ _ _ eq_refl (late_step _ _ _ _ _ _ Gx V1 O E1) (late_step _ _ _ _ _ _ Gy V2 O E2)). }
    destruct (ample_drop p Am) as (t & p' & Dr & Nt & Am' & D). destruct (ErrOrder.drop_suffix p) as [q1 Q1]. rewrite Dr in Q1.
    assert (Q2 : A ++ B = (q ++ q1) ++ t :: p') by (rewrite Q, Q1 at 1; apply app_assoc).
    assert (Drop : forall ev op es, agree x y (mkC (A ++ B ++ x) (t :: p' ++ x) ev op es) (mkC (A ++ B ++ y) (t :: p' ++ y) ev op es)).
    { intros ev' op' es'. exists (t :: p'), (q ++ q1), ev', op', es'. split; [exact Q2|]. split; reflexivity. }
    assert (Stay : forall ev op es, agree x y (mkC (A ++ B ++ x) (p ++ x) ev op es) (mkC (A ++ B ++ y) (p ++ y) ev op es)).
    { intros ev' op' es'. exists p, q, ev', op', es'. split; [exact Q|]. split; reflexivity. }
    destruct o as [| |site as_|n kd| |e tok| |m kd|c|w|site f]; cbn [cstep c_rest c_toks c_events c_open c_errs] in E1, E2; rewrite ?D in E1, E2.
    - discriminate Lk.
    - injection E1 as <- <-. injection E2 as <- <-. left. split; [|apply Stay]. rewrite !app_assoc, Q, !app_length. lia.
    - injection E1 as <- <-. injection E2 as <- <-. left. split; [reflexivity|]. exists p', ((q ++ q1) ++ [t]), (ev ++ [EToken match as_ with Some k => k | None => tk_kind t end]), op, es. rewrite <- app_assoc. split; [exact Q2|]. split; reflexivity.
    - destruct (Nat.eqb _ n); [|discriminate]. destruct (Nat.eqb (length (firstn n (t :: p' ++ y))) n); [|discriminate]. injection E1 as <- <-. injection E2 as <- <-.
      change (t :: p' ++ x) with ((t :: p') ++ x). change (t :: p' ++ y) with ((t :: p') ++ y). rewrite !firstn_app, !skipn_app. destruct (le_lt_dec n (length (t :: p'))) as [Le|Gt].
      + left. replace (n - length (t :: p')) with 0 by lia. cbn [firstn skipn]. rewrite !app_nil_r. split; [reflexivity|].
        eexists (skipn n (t :: p')), ((q ++ q1) ++ firstn n (t :: p')), _, _, _. rewrite <- app_assoc, firstn_skipn. split; [exact Q2|]. split; reflexivity.
      + right. rewrite (skipn_all2 (t :: p')) by lia. cbn [app].
        assert (Near : forall z ev op es, near z (mkC (A ++ B ++ z) (skipn (n - length (t :: p')) z) ev op es)).
        { intros z ev' op' es'. split; [reflexivity|]. cbn [c_rest]. destruct (ErrOrder.drop_suffix (skipn (n - length (t :: p')) z)) as [l El]. exists (B ++ firstn (n - length (t :: p')) z ++ l). now rewrite <- !app_assoc, <- El, firstn_skipn. }
        split; [apply Near|]. split; [apply Near|]. exists es, [], []. cbn [c_errs]. rewrite app_nil_r. auto.
    - injection E1 as <- <-. injection E2 as <- <-. left. split; [reflexivity|]. apply Stay.
    - destruct tok as [tok|]; [discriminate O|]. cbn [error_here rbind] in E1, E2. injection E1 as <- <-. injection E2 as <- <-. left. split; [reflexivity|]. apply Drop.
    - unfold c_start in E1, E2. cbn [c_toks c_rest c_events c_open c_errs] in E1, E2. injection E1 as <- <-. injection E2 as <- <-. left. split; [reflexivity|]. apply Stay.
    - unfold c_complete in E1, E2. cbn [c_toks c_rest c_events c_open c_errs] in E1, E2. destruct (dbg && _)%bool; [discriminate|]. destruct (nth_error _ m); [|discriminate]. destruct (dbg && _)%bool; [discriminate|].
      injection E1 as <- <-. injection E2 as <- <-. left. split; [reflexivity|]. apply Stay.
    - unfold c_precede, c_start in E1, E2. cbn [c_toks c_rest c_events c_open c_errs] in E1, E2. match type of E1 with context [nth_error ?l c] => destruct (nth_error l c) as [[k0 fp| | | | |]|]; try discriminate end.
      injection E1 as <- <-. injection E2 as <- <-. left. split; [reflexivity|]. apply Stay.
    - discriminate.
    - destruct dbg; [destruct (f _); [|discriminate]; destruct (f _); [|discriminate]|]; injection E1 as <- <-; injection E2 as <- <-; (left; split; [reflexivity|]); [apply Drop|apply Stay].
  Qed.

  (** * Programs *)
  Local Notation steps n p s := (run (cstep dbg) n p s).
  Definition late_from {R : Set} (k : nat) (p : prog R) : Prop := forall x n s a s', n < k -> good x -> near x s -> steps n p s = OK (a, s') ->
    near x s' /\ exists f, c_errs s' = c_errs s ++ f /\ Forall far f.
  Definition rel_from {R : Set} (k : nat) (p : prog R) : Prop := forall x y n s1 s2 a1 a2 s1' s2', n < k -> good x -> good y -> agree x y s1 s2 ->
    steps n p s1 = OK (a1, s1') -> steps n p s2 = OK (a2, s2') -> (a1 = a2 /\ agree x y s1' s2') \/ lost x y s1' s2'.
  Hypothesis Calls : forall c, late_from N (body c) /\ rel_from N (body c).
  Notation late := (late_from (S N)).
  Notation rel := (rel_from (S N)).
  Definition loc {R : Set} (p : prog R) : Prop := late p /\ rel p.
  (** The token [t] has just been taken. *)
  Definition loct {R : Set} (t : token) (p : prog R) : Prop := (M <= tk_start t -> late p) /\ rel p.
  Lemma late_trans x s s' s'' : (near x s' /\ exists f, c_errs s' = c_errs s ++ f /\ Forall far f) -> (near x s'' /\ exists f, c_errs s'' = c_errs s' ++ f /\ Forall far f) ->
    near x s'' /\ exists f, c_errs s'' = c_errs s ++ f /\ Forall far f.
  Proof. intros (_ & f & F & L) (H & g & G & L'). split; [exact H|]. exists (f ++ g). rewrite G, F, app_assoc. split; [reflexivity|]. now apply Forall_app. Qed.
  Lemma late_ret (R : Set) k (a : R) : late_from k (Ret a).
  Proof. intros x n s b s' L G V E. rewrite run_Ret in E. injection E as <- <-. split; [exact V|]. exists []. rewrite app_nil_r. auto. Qed.
  Lemma loc_ret (R : Set) (a : R) : loc (Ret a).
  Proof. split; [apply late_ret|]. intros x y n s1 s2 a1 a2 s1' s2' L Gx Gy V E1 E2. rewrite run_Ret in E1, E2. injection E1 as <- <-. injection E2 as <- <-. left. auto. Qed.
  Lemma loc_bind (R R' : Set) (p : prog R) (g : R -> prog R') : loc p -> (forall a, loc (g a)) -> loc (bind p g).
  Proof.
    intros [Lp Rp] G. split.
    - intros x n s b s' L Gx V E. rewrite run_bind in E. destruct (run _ n p s) as [[a s1]|q|] eqn:E1; try discriminate. cbn [rbind fst snd] in E.
      pose proof (Lp x n s a s1 L Gx V E1) as H. exact (late_trans x s s1 s' H (proj1 (G a) x n s1 b s' L Gx (proj1 H) E)).
    - intros x y n s1 s2 b1 b2 s1' s2' L Gx Gy V E1 E2. rewrite run_bind in E1, E2. destruct (run _ n p s1) as [[a1 t1]|q|] eqn:F1; try discriminate. destruct (run _ n p s2) as [[a2 t2]|q|] eqn:F2; try discriminate. cbn [rbind fst snd] in E1, E2.
      destruct (Rp x y n s1 s2 a1 a2 t1 t2 L Gx Gy V F1 F2) as [[<- Ag]|Lo]; [exact (proj2 (G a1) x y n t1 t2 b1 b2 s1' s2' L Gx Gy Ag E1 E2)|]. right.
      refine (lost_late x y t1 t2 s1' s2' Lo _ _); [exact (proj1 (G a1) x n t1 b1 s1' L Gx (proj1 Lo) E1)|exact (proj1 (G a2) y n t2 b2 s2' L Gy (proj1 (proj2 Lo)) E2)].
  Qed.
  Lemma loc_prim (X : Set) (o : op X) : about o = false -> looks o = false -> loc (prim o).
  Proof.
    intros O Lk. split.
    - intros x n s b s' L Gx V E. unfold prim in E. rewrite run_Op in E. destruct (cstep dbg X o s) as [[a s1]|q|] eqn:E1; try discriminate. cbn [rbind fst snd] in E. rewrite run_Ret in E. injection E as <- <-. exact (late_step X o x s a s1 Gx V O E1).
    - intros x y n s1 s2 b1 b2 s1' s2' L Gx Gy V E1 E2. unfold prim in E1, E2. rewrite run_Op in E1, E2. destruct (cstep dbg X o s1) as [[a1 t1]|q|] eqn:F1; try discriminate. destruct (cstep dbg X o s2) as [[a2 t2]|q|] eqn:F2; try discriminate.
      cbn [rbind fst snd] in E1, E2. rewrite run_Ret in E1, E2. injection E1 as <- <-. injection E2 as <- <-. exact (rel_step X o x y s1 s2 a1 a2 t1 t2 Gx Gy V O Lk F1 F2).
  Qed.
  Lemma loc_op (R X : Set) (o : op X) (g : X -> prog R) : about o = false -> looks o = false -> (forall b, loc (g b)) -> loc (Op o g).
  Proof. intros O Lk G. exact (loc_bind X R (prim o) g (loc_prim X o O Lk) G). Qed.
  Lemma loc_look (X : Set) (f : list token -> X) : lf f -> loc (look f).
  Proof.
    intros F. split.
    - intros x n s b s' L Gx V E. unfold look in E. rewrite run_Op in E. destruct (cstep dbg _ Look s) as [[a s1]|q|] eqn:E1; try discriminate. cbn [rbind fst snd] in E. rewrite run_Ret in E. injection E as <- <-. exact (late_step _ Look x s a s1 Gx V eq_refl E1).
    - intros x y n s1 s2 b1 b2 s1' s2' L Gx Gy V E1 E2. unfold look in E1, E2. rewrite run_Op in E1, E2. destruct V as (p & q & ev & op & es & Q & -> & ->). destruct (ample_dec p) as [Am|Few].
      + destruct (ample_drop p Am) as (t & p' & Dr & Nt & Am' & D). cbn [cstep c_rest c_toks c_events c_open c_errs] in E1, E2. rewrite D in E1, E2. cbn [rbind fst snd] in E1, E2. rewrite run_Ret in E1, E2. injection E1 as <- <-. injection E2 as <- <-.
        left. split; [exact (F t p' x y Nt Am')|]. destruct (ErrOrder.drop_suffix p) as [q1 Q1]. rewrite Dr in Q1. exists (t :: p'), (q ++ q1), ev, op, es. rewrite <- app_assoc, <- Q1. split; [exact Q|]. split; reflexivity.
      + right. destruct (agree_few x y q p ev op es Q Few) as [V1 V2].
        destruct (cstep dbg _ Look (mkC (A ++ B ++ x) _ _ _ _)) as [[a1 t1]|w|] eqn:F1; try discriminate. destruct (cstep dbg _ Look (mkC (A ++ B ++ y) _ _ _ _)) as [[a2 t2]|w|] eqn:F2; try discriminate.
        cbn [rbind fst snd] in E1, E2. rewrite run_Ret in E1, E2. injection E1 as <- <-. injection E2 as <- <-.
        exact (both_late x y _ _ _ _ eq_refl (late_step _ Look _ _ _ _ Gx V1 eq_refl F1) (late_step _ Look _ _ _ _ Gy V2 eq_refl F2)).
  Qed.
  Lemma loc_take (R : Set) (g : token -> prog R) : (forall t, loct t (g t)) -> loc (bind bump g).
  Proof.
    assert (Far : forall x s t s1, good x -> near x s -> cstep dbg _ (BumpAs SOther None) s = OK (t, s1) -> M <= tk_start t).
    { intros x s t s1 Gx V E1. cbn [cstep] in E1. destruct (drop_trivia (c_rest s)) as [|u l] eqn:Dr; [discriminate|]. injection E1 as <- _. apply (near_rest x s u V Gx). rewrite Dr. now left. }
    intros G. split.
    - intros x n s b s' L Gx V E. unfold bump, prim in E. cbn [bind] in E. rewrite run_Op in E. destruct (cstep dbg _ _ s) as [[t s1]|q|] eqn:E1; try discriminate. cbn [rbind fst snd] in E.
      pose proof (late_step _ (BumpAs _ None) x s t s1 Gx V eq_refl E1) as H. refine (late_trans x s s1 s' H _). exact (proj1 (G t) (Far x s t s1 Gx V E1) x n s1 b s' L Gx (proj1 H) E).
    - intros x y n s1 s2 b1 b2 s1' s2' L Gx Gy V E1 E2. unfold bump, prim in E1, E2. cbn [bind] in E1, E2. rewrite run_Op in E1, E2.
      destruct (cstep dbg _ _ s1) as [[a1 t1]|q|] eqn:F1; try discriminate. destruct (cstep dbg _ _ s2) as [[a2 t2]|q|] eqn:F2; try discriminate. cbn [rbind fst snd] in E1, E2.
      destruct V as (p & q & ev & op & es & Q & -> & ->). destruct (ample_dec p) as [Am|Few].
      + destruct (ample_drop p Am) as (t & p' & Dr & Nt & Am' & D). cbn [cstep c_rest c_toks c_events c_open c_errs] in F1, F2. rewrite D in F1, F2. injection F1 as <- <-. injection F2 as <- <-.
        refine (proj2 (G _) x y n _ _ b1 b2 s1' s2' L Gx Gy _ E1 E2). destruct (ErrOrder.drop_suffix p) as [q1 Q1]. rewrite Dr in Q1.
        exists p', ((q ++ q1) ++ [t]), (ev ++ [EToken (tk_kind t)]), op, es. rewrite <- !app_assoc. cbn [app]. rewrite <- Q1. split; [exact Q|]. split; reflexivity.
      + destruct (agree_few x y q p ev op es Q Few) as [V1 V2]. right.
        pose proof (late_step _ (BumpAs _ None) x _ _ _ Gx V1 eq_refl F1) as H1. pose proof (late_step _ (BumpAs _ None) y _ _ _ Gy V2 eq_refl F2) as H2.
        refine (both_late x y _ _ s1' s2' eq_refl (late_trans x _ t1 s1' H1 _) (late_trans y _ t2 s2' H2 _)).
        * exact (proj1 (G a1) (Far x _ a1 t1 Gx V1 F1) x n t1 b1 s1' L Gx (proj1 H1) E1).
        * exact (proj1 (G a2) (Far y _ a2 t2 Gy V2 F2) y n t2 b2 s2' L Gy (proj1 H2) E2).
  Qed.
  Lemma loct_loc (R : Set) t (p : prog R) : loc p -> loct t p.
  Proof. intros [H1 H2]. split; auto. Qed.
  Lemma loct_about_last e t : loct t (add_error_at e t).
  Proof.
    split.
    - intros Le x n s b s' L Gx V E. unfold add_error_at, prim in E. rewrite run_Op in E. cbn [cstep rbind fst snd] in E. rewrite run_Ret in E. injection E as <- <-. apply (near_move x s _ [error_at t e]); try reflexivity; auto. now exists [].
    - intros x y n s1 s2 b1 b2 s1' s2' L Gx Gy (p & q & ev & op & es & Q & -> & ->) E1 E2. unfold add_error_at, prim in E1, E2. rewrite run_Op in E1, E2. cbn [cstep rbind fst snd] in E1, E2. rewrite run_Ret in E1, E2. injection E1 as <- <-. injection E2 as <- <-.
      left. split; [reflexivity|]. exists p, q, ev, op, (es ++ [error_at t e]). split; [exact Q|]. split; reflexivity.
  Qed.
  Lemma loct_about (R : Set) e t (g : unit -> prog R) : loc (g tt) -> loct t (bind (add_error_at e t) g).
  Proof.
    intros G. assert (G' : forall a, loc (g a)) by (intros []; exact G). destruct (loct_about_last e t) as [H1 H2]. split.
    - intros Le. specialize (H1 Le). intros x n s b s' L Gx V E. rewrite run_bind in E. destruct (run _ n (add_error_at e t) s) as [[a s1]|q|] eqn:E1; try discriminate. cbn [rbind fst snd] in E.
      pose proof (H1 x n s a s1 L Gx V E1) as H. exact (late_trans x s s1 s' H (proj1 (G' a) x n s1 b s' L Gx (proj1 H) E)).
    - intros x y n s1 s2 b1 b2 s1' s2' L Gx Gy V E1 E2. rewrite run_bind in E1, E2. destruct (run _ n (add_error_at e t) s1) as [[a1 t1]|q|] eqn:F1; try discriminate. destruct (run _ n (add_error_at e t) s2) as [[a2 t2]|q|] eqn:F2; try discriminate. cbn [rbind fst snd] in E1, E2.
      destruct (H2 x y n s1 s2 a1 a2 t1 t2 L Gx Gy V F1 F2) as [[<- Ag]|Lo]; [exact (proj2 (G' a1) x y n t1 t2 b1 b2 s1' s2' L Gx Gy Ag E1 E2)|]. right.
      refine (lost_late x y t1 t2 s1' s2' Lo _ _); [exact (proj1 (G' a1) x n t1 b1 s1' L Gx (proj1 Lo) E1)|exact (proj1 (G' a2) y n t2 b2 s2' L Gy (proj1 (proj2 Lo)) E2)].
  Qed.
  Lemma call_alone c : loc (Call c (fun a => Ret a)).
  Proof.
    destruct (Calls c) as [H1 H2]. split.
    - intros x n s b s' L Gx V E. rewrite run_Call in E. destruct n as [|n]; [discriminate|]. match type of E with rbind ?r _ = _ => destruct r as [[a s1]|q|] eqn:E1; try discriminate end. cbn [rbind fst snd] in E. rewrite run_Ret in E. injection E as <- <-.
      refine (H1 x n s a s1 _ Gx V E1). lia.
    - intros x y n s1 s2 b1 b2 s1' s2' L Gx Gy V E1 E2. rewrite run_Call in E1, E2. destruct n as [|n]; [discriminate|]. match type of E1 with rbind ?r _ = _ => destruct r as [[a1 t1]|q|] eqn:F1; try discriminate end. match type of E2 with rbind ?r _ = _ => destruct r as [[a2 t2]|q|] eqn:F2; try discriminate end.
      cbn [rbind fst snd] in E1, E2. rewrite run_Ret in E1, E2. injection E1 as <- <-. injection E2 as <- <-. refine (H2 x y n s1 s2 a1 a2 t1 t2 _ Gx Gy V F1 F2). lia.
  Qed.
  Lemma loc_call (R : Set) c (k : option nat -> prog R) : (forall a, loc (k a)) -> loc (Call c k).
  Proof.
    intros H. assert (E : forall n s, steps n (Call c k) s = steps n (bind (Call c (fun a => Ret a)) k) s) by reflexivity.
    destruct (loc_bind _ _ (Call c (fun a => Ret a)) k (call_alone c) H) as [H1 H2]. split; [exact H1|exact H2].
  Qed.
  Lemma turns_late (X R : Set) (f : X -> prog (X + R)) : (forall x, loc (f x)) -> forall x, late (Iter f x (fun b => Ret b)).
  Proof.
    intros H i x n. revert i. induction n as [n IH] using (well_founded_induction lt_wf). intros i s b s' L Gx V E. rewrite run_Iter in E.
    match type of E with rbind (rbind ?r _) _ = _ => destruct r as [[z s1]|q|] eqn:E1; try discriminate end. cbn [rbind fst snd] in E.
    pose proof (proj1 (H i) x n s z s1 L Gx V E1) as Z. destruct z as [i'|b'].
    - destruct n as [|n]; [discriminate E|]. match type of E with rbind ?r _ = _ => destruct r as [[z s2]|q|] eqn:E2; try discriminate end. cbn [rbind fst snd] in E.
      rewrite run_Ret in E. injection E as <- <-. refine (late_trans x s s1 s2 Z _). apply (IH n (Nat.lt_succ_diag_r n) i' s1 z s2); [lia|exact Gx|exact (proj1 Z)|exact E2].
    - cbn [rbind fst snd] in E. rewrite run_Ret in E. injection E as <- <-. exact Z.
  Qed.
  Lemma turns_rel (X R : Set) (f : X -> prog (X + R)) : (forall x, loc (f x)) -> forall x, rel (Iter f x (fun b => Ret b)).
  Proof.
    intros H i x y n. revert i. induction n as [n IH] using (well_founded_induction lt_wf). intros i s1 s2 b1 b2 s1' s2' L Gx Gy V E1 E2. rewrite run_Iter in E1, E2.
    match type of E1 with rbind (rbind ?r _) _ = _ => destruct r as [[z1 t1]|q|] eqn:F1; try discriminate end. match type of E2 with rbind (rbind ?r _) _ = _ => destruct r as [[z2 t2]|q|] eqn:F2; try discriminate end. cbn [rbind fst snd] in E1, E2.
    destruct (proj2 (H i) x y n s1 s2 z1 z2 t1 t2 L Gx Gy V F1 F2) as [[<- Ag]|Lo].
    - destruct z1 as [i'|b'].
      + destruct n as [|n]; [discriminate E1|]. match type of E1 with rbind ?r _ = _ => destruct r as [[z u1]|q|] eqn:K1; try discriminate end. match type of E2 with rbind ?r _ = _ => destruct r as [[z' u2]|q|] eqn:K2; try discriminate end.
        cbn [rbind fst snd] in E1, E2. rewrite run_Ret in E1, E2. injection E1 as <- <-. injection E2 as <- <-. apply (IH n (Nat.lt_succ_diag_r n) i' t1 t2 z z' u1 u2); [lia|exact Gx|exact Gy|exact Ag|exact K1|exact K2].
      + cbn [rbind fst snd] in E1, E2. rewrite run_Ret in E1, E2. injection E1 as <- <-. injection E2 as <- <-. left. auto.
    - right. refine (lost_late x y t1 t2 s1' s2' Lo _ _).
      + destruct z1 as [i'|b'].
        * destruct n as [|n]; [discriminate E1|]. match type of E1 with rbind ?r _ = _ => destruct r as [[z u1]|q|] eqn:K1; try discriminate end. cbn [rbind fst snd] in E1. rewrite run_Ret in E1. injection E1 as <- <-.
          apply (turns_late X R f H i' x n t1 z u1); [lia|exact Gx|exact (proj1 Lo)|exact K1].
        * cbn [rbind fst snd] in E1. rewrite run_Ret in E1. injection E1 as <- <-. split; [exact (proj1 Lo)|]. exists []. rewrite app_nil_r. auto.
      + destruct z2 as [i'|b'].
        * destruct n as [|n]; [discriminate E2|]. match type of E2 with rbind ?r _ = _ => destruct r as [[z u1]|q|] eqn:K1; try discriminate end. cbn [rbind fst snd] in E2. rewrite run_Ret in E2. injection E2 as <- <-.
          apply (turns_late X R f H i' y n t2 z u1); [lia|exact Gy|exact (proj1 (proj2 Lo))|exact K1].
        * cbn [rbind fst snd] in E2. rewrite run_Ret in E2. injection E2 as <- <-. split; [exact (proj1 (proj2 Lo))|]. exists []. rewrite app_nil_r. auto.
  Qed.
  Lemma loc_iter (R X Y : Set) (f : X -> prog (X + Y)) x (k : Y -> prog R) : (forall x, loc (f x)) -> (forall b, loc (k b)) -> loc (Iter f x k).
  Proof.
    intros H G. assert (Al : loc (Iter f x (fun b => Ret b))) by (split; [exact (turns_late X Y f H x)|exact (turns_rel X Y f H x)]).
    exact (loc_bind _ _ (Iter f x (fun b => Ret b)) k Al G).
  Qed.

  (** * Every function of the grammar *)
  Create HintDb loc discriminated.
  #[local] Hint Constants Opaque : loc.
  #[local] Hint Extern 1 (Datatypes.length _ <= 2) => cbn; lia : loc.
  Ltac loc1 :=
    lazymatch goal with
    | |- loc (Ret _) => apply loc_ret
    | |- loc (bind bump ?g) =>
      match g with
      | context [add_error_at] => apply loc_take; intros
      | _ => apply loc_bind; [|intros]
      end
    | |- loct _ (bind (add_error_at _ _) _) => apply loct_about
    | |- loct _ (add_error_at _ _) => apply loct_about_last
    | |- loct _ (if ?b then _ else _) => destruct b
    | |- loct _ (match ?x with _ => _ end) => destruct x
    | |- loct _ _ => apply loct_loc
    | |- loc (bind _ _) => apply loc_bind; [|intros]
    | |- loc (if ?b then _ else _) => destruct b
    | |- loc (match ?x with _ => _ end) => destruct x
    | |- loc (when ?b _) => unfold when
    | |- loc (parse_many_st _ _ _) => unfold parse_many_st
    | |- loc (parse_many _ _) => unfold parse_many
    | |- loc (parse_body _ _) => unfold parse_body
    | |- loc (Iter _ _ _) => apply loc_iter; intros
    | |- loc (look _) => apply loc_look; lfs
    | |- loc (Op _ _) => apply loc_op; [reflexivity|reflexivity|intros]
    | |- loc (Call _ _) => apply loc_call; intros
    | |- loc (prim _) => apply loc_prim; reflexivity
    | |- loc (complete _ _) => apply loc_prim; reflexivity
    | |- loc (debug_assert_site _ _) => apply loc_prim; reflexivity
    | |- loc explicitly_consume_trivia => apply loc_prim; reflexivity
    | |- loc _ => solve [auto with loc nocore]
    end.
  Ltac locs := cbv beta iota zeta; repeat (loc1; cbv beta iota zeta).
  Lemma f_at_ : forall k, loc (at_ k).
  Proof. intros. unfold at_. locs. Qed.
  #[local] Hint Resolve f_at_ : loc.
  Lemma f_at_set : forall s, loc (at_set s).
  Proof. intros. unfold at_set. locs. Qed.
  #[local] Hint Resolve f_at_set : loc.
  Lemma f_at_end : loc at_end.
  Proof. intros. unfold at_end. locs. Qed.
  #[local] Hint Resolve f_at_end : loc.
  Lemma f_at_following : forall s, length s <= 2 -> loc (at_following s).
  Proof. intros. unfold at_following. locs. Qed.
  #[local] Hint Resolve f_at_following : loc.
  Lemma f_at_following_content : forall s, length s <= 2 -> loc (at_following_content s).
  Proof. intros. unfold at_following_content. locs. Qed.
  #[local] Hint Resolve f_at_following_content : loc.
  Lemma f_at_twig_tag : forall k, loc (at_twig_tag k).
  Proof. intros. unfold at_twig_tag. locs. Qed.
  #[local] Hint Resolve f_at_twig_tag : loc.
  Lemma f_at_twig_block_open : loc at_twig_block_open.
  Proof. intros. unfold at_twig_block_open. locs. Qed.
  #[local] Hint Resolve f_at_twig_block_open : loc.
  Lemma f_at_twig_block_close : loc at_twig_block_close.
  Proof. intros. unfold at_twig_block_close. locs. Qed.
  #[local] Hint Resolve f_at_twig_block_close : loc.
  Lemma f_at_twig_var_open : loc at_twig_var_open.
  Proof. intros. unfold at_twig_var_open. locs. Qed.
  #[local] Hint Resolve f_at_twig_var_open : loc.
  Lemma f_at_twig_comment_open : loc at_twig_comment_open.
  Proof. intros. unfold at_twig_comment_open. locs. Qed.
  #[local] Hint Resolve f_at_twig_comment_open : loc.
  Lemma f_peek_token : loc peek_token.
  Proof. intros. unfold peek_token. locs. Qed.
  #[local] Hint Resolve f_peek_token : loc.
  Lemma f_peek_nth_token : forall n, n <= 1 -> loc (peek_nth_token n).
  Proof. intros. unfold peek_nth_token. locs. Qed.
  #[local] Hint Resolve f_peek_nth_token : loc.
  Lemma f_get_pos : loc get_pos.
  Proof. intros. unfold get_pos. locs. Qed.
  #[local] Hint Resolve f_get_pos : loc.
  Lemma f_bump : loc bump.
  Proof. intros. unfold bump. locs. Qed.
  #[local] Hint Resolve f_bump : loc.
  Lemma f_bump_site : forall s, loc (bump_site s).
  Proof. intros. unfold bump_site. locs. Qed.
  #[local] Hint Resolve f_bump_site : loc.
  Lemma f_bump_as : forall k, loc (bump_as k).
  Proof. intros. unfold bump_as. locs. Qed.
  #[local] Hint Resolve f_bump_as : loc.
  Lemma f_bump_next_n_as : forall n k, loc (bump_next_n_as n k).
  Proof. intros. unfold bump_next_n_as. locs. Qed.
  #[local] Hint Resolve f_bump_next_n_as : loc.
  Lemma f_start : loc start.
  Proof. intros. unfold start. locs. Qed.
  #[local] Hint Resolve f_start : loc.
  Lemma f_precede : forall c, loc (precede c).
  Proof. intros. unfold precede. locs. Qed.
  #[local] Hint Resolve f_precede : loc.
  Lemma f_fail : forall B p, loc (@fail B p).
  Proof. intros. unfold fail. locs. Qed.
  #[local] Hint Resolve f_fail : loc.
  Lemma f_debug_assert : forall f, loc (debug_assert f).
  Proof. intros. unfold debug_assert. locs. Qed.
  #[local] Hint Resolve f_debug_assert : loc.
  Lemma f_add_error : forall e, loc (add_error e).
  Proof. intros. unfold add_error. locs. Qed.
  #[local] Hint Resolve f_add_error : loc.
  Lemma f_add_error_t : forall e, loc (add_error_t e).
  Proof. intros. unfold add_error_t. locs. Qed.
  #[local] Hint Resolve f_add_error_t : loc.
  Lemma f_recover_expect : forall expected set, loc (recover_expect expected set).
  Proof. intros. unfold recover_expect. locs. Qed.
  #[local] Hint Resolve f_recover_expect : loc.
  Lemma f_recover : forall set, loc (recover set).
  Proof. intros. unfold recover. locs. Qed.
  #[local] Hint Resolve f_recover : loc.
  Lemma f_display : forall k, loc (display k).
  Proof. intros. unfold display. locs. Qed.
  #[local] Hint Resolve f_display : loc.
  Lemma f_display_or : forall ks, loc (display_or ks).
  Proof. induction ks as [|k ks IH]; [apply loc_ret|]. cbn [display_or]. destruct ks; locs. Qed.
  #[local] Hint Resolve f_display_or : loc.
  Lemma f_expect : forall k set, loc (expect k set).
  Proof. intros. unfold expect. locs. Qed.
  #[local] Hint Resolve f_expect : loc.
  Lemma f_expect_any : forall ks set, loc (expect_any ks set).
  Proof. intros. unfold expect_any. locs. Qed.
  #[local] Hint Resolve f_expect_any : loc.
  Lemma f_parse_twig_expression_binding_power : forall bp, loc (parse_twig_expression_binding_power bp).
  Proof. intros. unfold parse_twig_expression_binding_power. locs. Qed.
  #[local] Hint Resolve f_parse_twig_expression_binding_power : loc.
  Lemma f_parse_twig_expression : loc parse_twig_expression.
  Proof. intros. unfold parse_twig_expression. locs. Qed.
  #[local] Hint Resolve f_parse_twig_expression : loc.
  Lemma f_parse_twig_name : loc parse_twig_name.
  Proof. intros. unfold parse_twig_name. locs. Qed.
  #[local] Hint Resolve f_parse_twig_name : loc.
  Lemma f_parse_twig_number : loc parse_twig_number.
  Proof. intros. unfold parse_twig_number. locs. Qed.
  #[local] Hint Resolve f_parse_twig_number : loc.
  Lemma f_parse_twig_null : loc parse_twig_null.
  Proof. intros. unfold parse_twig_null. locs. Qed.
  #[local] Hint Resolve f_parse_twig_null : loc.
  Lemma f_parse_twig_boolean : loc parse_twig_boolean.
  Proof. intros. unfold parse_twig_boolean. locs. Qed.
  #[local] Hint Resolve f_parse_twig_boolean : loc.
  Lemma f_twig_string_child : forall quote_kind interpolation_allowed, loc (twig_string_child quote_kind interpolation_allowed).
  Proof. intros. unfold twig_string_child. locs. Qed.
  #[local] Hint Resolve f_twig_string_child : loc.
  Lemma f_parse_twig_string : forall interpolation_allowed, loc (parse_twig_string interpolation_allowed).
  Proof. intros. unfold parse_twig_string. locs. Qed.
  #[local] Hint Resolve f_parse_twig_string : loc.
  Lemma f_parse_twig_array : loc parse_twig_array.
  Proof. intros. unfold parse_twig_array. locs. Qed.
  #[local] Hint Resolve f_parse_twig_array : loc.
  Lemma f_parse_twig_hash_key : loc parse_twig_hash_key.
  Proof. intros. unfold parse_twig_hash_key. locs. Qed.
  #[local] Hint Resolve f_parse_twig_hash_key : loc.
  Lemma f_parse_twig_hash_pair : loc parse_twig_hash_pair.
  Proof. intros. unfold parse_twig_hash_pair. locs. Qed.
  #[local] Hint Resolve f_parse_twig_hash_pair : loc.
  Lemma f_parse_twig_hash : loc parse_twig_hash.
  Proof. intros. unfold parse_twig_hash. locs. Qed.
  #[local] Hint Resolve f_parse_twig_hash : loc.
  Lemma f_parse_twig_function_argument : loc parse_twig_function_argument.
  Proof. intros. unfold parse_twig_function_argument. locs. Qed.
  #[local] Hint Resolve f_parse_twig_function_argument : loc.
  Lemma f_parse_arguments : forall closing, loc (parse_arguments closing).
  Proof. intros. unfold parse_arguments. locs. Qed.
  #[local] Hint Resolve f_parse_arguments : loc.
  Lemma f_parse_twig_filter : forall last_node, loc (parse_twig_filter last_node).
  Proof. intros. unfold parse_twig_filter. locs. Qed.
  #[local] Hint Resolve f_parse_twig_filter : loc.
  Lemma f_parse_twig_indexer : forall last_node, loc (parse_twig_indexer last_node).
  Proof. intros. unfold parse_twig_indexer. locs. Qed.
  #[local] Hint Resolve f_parse_twig_indexer : loc.
  Lemma f_parse_twig_function : forall last_node, loc (parse_twig_function last_node).
  Proof. intros. unfold parse_twig_function. locs. Qed.
  #[local] Hint Resolve f_parse_twig_function : loc.
  Lemma f_parse_twig_accessor : forall last_node, loc (parse_twig_accessor last_node).
  Proof. intros. unfold parse_twig_accessor. locs. Qed.
  #[local] Hint Resolve f_parse_twig_accessor : loc.
  Lemma f_parse_twig_test_implicit_argument : forall last_node, loc (parse_twig_test_implicit_argument last_node).
  Proof. intros. unfold parse_twig_test_implicit_argument. locs. Qed.
  #[local] Hint Resolve f_parse_twig_test_implicit_argument : loc.
  Lemma f_parse_twig_arrow_function : forall last_node, loc (parse_twig_arrow_function last_node).
  Proof. intros. unfold parse_twig_arrow_function. locs. Qed.
  #[local] Hint Resolve f_parse_twig_arrow_function : loc.
  Lemma f_parse_postfix_operators : forall node, loc (parse_postfix_operators node).
  Proof. intros. unfold parse_postfix_operators. locs. Qed.
  #[local] Hint Resolve f_parse_postfix_operators : loc.
  Lemma f_parse_twig_literal : loc parse_twig_literal.
  Proof. intros. unfold parse_twig_literal. locs. Qed.
  #[local] Hint Resolve f_parse_twig_literal : loc.
  Lemma f_parse_conditional_expression : forall lhs, loc (parse_conditional_expression lhs).
  Proof. intros. unfold parse_conditional_expression. locs. Qed.
  #[local] Hint Resolve f_parse_conditional_expression : loc.
  Lemma f_binary_loop : forall minimum_binding_power lhs, loc (binary_loop minimum_binding_power lhs).
  Proof. intros. unfold binary_loop. locs. Qed.
  #[local] Hint Resolve f_binary_loop : loc.
  Lemma f_parse_twig_expression_binding_power_rhs : forall minimum_binding_power lhs, loc (parse_twig_expression_binding_power_rhs minimum_binding_power lhs).
  Proof. intros. unfold parse_twig_expression_binding_power_rhs. locs. Qed.
  #[local] Hint Resolve f_parse_twig_expression_binding_power_rhs : loc.
  Lemma f_parse_paren_expression : loc parse_paren_expression.
  Proof. intros. unfold parse_paren_expression. locs. Qed.
  #[local] Hint Resolve f_parse_paren_expression : loc.
  Lemma f_parse_paren_arrow_function : forall m, loc (parse_paren_arrow_function m).
  Proof. intros. unfold parse_paren_arrow_function. locs. Qed.
  #[local] Hint Resolve f_parse_paren_arrow_function : loc.
  Lemma f_parse_unary_expression : loc parse_unary_expression.
  Proof. intros. unfold parse_unary_expression. locs. Qed.
  #[local] Hint Resolve f_parse_unary_expression : loc.
  Lemma f_parse_twig_expression_lhs : loc parse_twig_expression_lhs.
  Proof. intros. unfold parse_twig_expression_lhs. locs. Qed.
  #[local] Hint Resolve f_parse_twig_expression_lhs : loc.
  Lemma f_body_expression : forall minimum_binding_power, loc (body_expression minimum_binding_power).
  Proof. intros. unfold body_expression. locs. Qed.
  #[local] Hint Resolve f_body_expression : loc.
  Lemma f_at_twig_termination_tag : loc at_twig_termination_tag.
  Proof. intros. unfold at_twig_termination_tag. locs. Qed.
  #[local] Hint Resolve f_at_twig_termination_tag : loc.
  Lemma f_call_child : forall f, loc (call_child f).
  Proof. intros. unfold call_child. locs. Qed.
  #[local] Hint Resolve f_call_child : loc.
  Lemma f_parse_ending : forall kw r1 r2 r3 node, loc (parse_ending kw r1 r2 r3 node).
  Proof. intros. unfold parse_ending. locs. Qed.
  #[local] Hint Resolve f_parse_ending : loc.
  Lemma f_expression_or : forall msg set, loc (expression_or msg set).
  Proof. intros. unfold expression_or. locs. Qed.
  #[local] Hint Resolve f_expression_or : loc.
  Lemma f_name_or : forall msg set, loc (name_or msg set).
  Proof. intros. unfold name_or. locs. Qed.
  #[local] Hint Resolve f_name_or : loc.
  Lemma f_string_or : forall msg set, loc (string_or msg set).
  Proof. intros. unfold string_or. locs. Qed.
  #[local] Hint Resolve f_string_or : loc.
  Lemma f_opt_bump : forall k, loc (opt_bump k).
  Proof. intros. unfold opt_bump. locs. Qed.
  #[local] Hint Resolve f_opt_bump : loc.
  Lemma f_parse_twig_cache : forall outer child, loc (parse_twig_cache outer child).
  Proof. intros. unfold parse_twig_cache. locs. Qed.
  #[local] Hint Resolve f_parse_twig_cache : loc.
  Lemma f_parse_twig_with : forall outer child, loc (parse_twig_with outer child).
  Proof. intros. unfold parse_twig_with. locs. Qed.
  #[local] Hint Resolve f_parse_twig_with : loc.
  Lemma f_parse_end_name : forall what name, loc (parse_end_name what name).
  Proof. intros. unfold parse_end_name. locs. Qed.
  #[local] Hint Resolve f_parse_end_name : loc.
  Lemma f_parse_twig_macro : forall outer child, loc (parse_twig_macro outer child).
  Proof. intros. unfold parse_twig_macro. locs. Qed.
  #[local] Hint Resolve f_parse_twig_macro : loc.
  Lemma f_parse_twig_verbatim : forall outer child, loc (parse_twig_verbatim outer child).
  Proof. intros. unfold parse_twig_verbatim. locs. Qed.
  #[local] Hint Resolve f_parse_twig_verbatim : loc.
  Lemma f_parse_twig_sandbox : forall outer child, loc (parse_twig_sandbox outer child).
  Proof. intros. unfold parse_twig_sandbox. locs. Qed.
  #[local] Hint Resolve f_parse_twig_sandbox : loc.
  Lemma f_parse_twig_flush : forall outer, loc (parse_twig_flush outer).
  Proof. intros. unfold parse_twig_flush. locs. Qed.
  #[local] Hint Resolve f_parse_twig_flush : loc.
  Lemma f_parse_twig_do : forall outer, loc (parse_twig_do outer).
  Proof. intros. unfold parse_twig_do. locs. Qed.
  #[local] Hint Resolve f_parse_twig_do : loc.
  Lemma f_parse_twig_deprecated : forall outer, loc (parse_twig_deprecated outer).
  Proof. intros. unfold parse_twig_deprecated. locs. Qed.
  #[local] Hint Resolve f_parse_twig_deprecated : loc.
  Lemma f_parse_twig_autoescape : forall outer child, loc (parse_twig_autoescape outer child).
  Proof. intros. unfold parse_twig_autoescape. locs. Qed.
  #[local] Hint Resolve f_parse_twig_autoescape : loc.
  Lemma f_parse_twig_apply : forall outer child, loc (parse_twig_apply outer child).
  Proof. intros. unfold parse_twig_apply. locs. Qed.
  #[local] Hint Resolve f_parse_twig_apply : loc.
  Lemma f_parse_twig_import : forall outer, loc (parse_twig_import outer).
  Proof. intros. unfold parse_twig_import. locs. Qed.
  #[local] Hint Resolve f_parse_twig_import : loc.
  Lemma f_parse_name_as_name_override : forall expected_description, loc (parse_name_as_name_override expected_description).
  Proof. intros. unfold parse_name_as_name_override. locs. Qed.
  #[local] Hint Resolve f_parse_name_as_name_override : loc.
  Lemma f_parse_overrides : forall desc, loc (parse_overrides desc).
  Proof. intros. unfold parse_overrides. locs. Qed.
  #[local] Hint Resolve f_parse_overrides : loc.
  Lemma f_parse_twig_from : forall outer, loc (parse_twig_from outer).
  Proof. intros. unfold parse_twig_from. locs. Qed.
  #[local] Hint Resolve f_parse_twig_from : loc.
  Lemma f_parse_twig_use : forall outer, loc (parse_twig_use outer).
  Proof. intros. unfold parse_twig_use. locs. Qed.
  #[local] Hint Resolve f_parse_twig_use : loc.
  Lemma f_parse_include_with : forall set, loc (parse_include_with set).
  Proof. intros. unfold parse_include_with. locs. Qed.
  #[local] Hint Resolve f_parse_include_with : loc.
  Lemma f_parse_twig_embed : forall outer child, loc (parse_twig_embed outer child).
  Proof. intros. unfold parse_twig_embed. locs. Qed.
  #[local] Hint Resolve f_parse_twig_embed : loc.
  Lemma f_parse_twig_include : forall outer, loc (parse_twig_include outer).
  Proof. intros. unfold parse_twig_include. locs. Qed.
  #[local] Hint Resolve f_parse_twig_include : loc.
  Lemma f_parse_twig_extends : forall outer, loc (parse_twig_extends outer).
  Proof. intros. unfold parse_twig_extends. locs. Qed.
  #[local] Hint Resolve f_parse_twig_extends : loc.
  Lemma f_parse_twig_for : forall outer child, loc (parse_twig_for outer child).
  Proof. intros. unfold parse_twig_for. locs. Qed.
  #[local] Hint Resolve f_parse_twig_for : loc.
  Lemma f_parse_set_assignment : loc parse_set_assignment.
  Proof. intros. unfold parse_set_assignment. locs. Qed.
  #[local] Hint Resolve f_parse_set_assignment : loc.
  Lemma f_parse_twig_set : forall outer child, loc (parse_twig_set outer child).
  Proof. intros. unfold parse_twig_set. locs. Qed.
  #[local] Hint Resolve f_parse_twig_set : loc.
  Lemma f_parse_twig_block : forall outer child, loc (parse_twig_block outer child).
  Proof. intros. unfold parse_twig_block. locs. Qed.
  #[local] Hint Resolve f_parse_twig_block : loc.
  Lemma f_parse_if_branches : forall child, loc (parse_if_branches child).
  Proof. intros. unfold parse_if_branches. locs. Qed.
  #[local] Hint Resolve f_parse_if_branches : loc.
  Lemma f_parse_twig_if : forall outer child, loc (parse_twig_if outer child).
  Proof. intros. unfold parse_twig_if. locs. Qed.
  #[local] Hint Resolve f_parse_twig_if : loc.
  Lemma f_parse_twig_trans : forall outer child, loc (parse_twig_trans outer child).
  Proof. intros. unfold parse_twig_trans. locs. Qed.
  #[local] Hint Resolve f_parse_twig_trans : loc.
  Lemma f_parse_twig_props : forall outer, loc (parse_twig_props outer).
  Proof. intros. unfold parse_twig_props. locs. Qed.
  #[local] Hint Resolve f_parse_twig_props : loc.
  Lemma f_parse_twig_component : forall outer child, loc (parse_twig_component outer child).
  Proof. intros. unfold parse_twig_component. locs. Qed.
  #[local] Hint Resolve f_parse_twig_component : loc.
  Lemma f_parse_twig_sw_thumbnails : forall outer, loc (parse_twig_sw_thumbnails outer).
  Proof. intros. unfold parse_twig_sw_thumbnails. locs. Qed.
  #[local] Hint Resolve f_parse_twig_sw_thumbnails : loc.
  Lemma f_parse_twig_sw_icon : forall outer, loc (parse_twig_sw_icon outer).
  Proof. intros. unfold parse_twig_sw_icon. locs. Qed.
  #[local] Hint Resolve f_parse_twig_sw_icon : loc.
  Lemma f_parse_twig_sw_return : forall outer, loc (parse_twig_sw_return outer).
  Proof. intros. unfold parse_twig_sw_return. locs. Qed.
  #[local] Hint Resolve f_parse_twig_sw_return : loc.
  Lemma f_parse_twig_sw_silent_feature_call : forall outer child, loc (parse_twig_sw_silent_feature_call outer child).
  Proof. intros. unfold parse_twig_sw_silent_feature_call. locs. Qed.
  #[local] Hint Resolve f_parse_twig_sw_silent_feature_call : loc.
  Lemma f_parse_twig_sw_extends : forall outer, loc (parse_twig_sw_extends outer).
  Proof. intros. unfold parse_twig_sw_extends. locs. Qed.
  #[local] Hint Resolve f_parse_twig_sw_extends : loc.
  Lemma f_parse_twig_sw_include : forall outer, loc (parse_twig_sw_include outer).
  Proof. intros. unfold parse_twig_sw_include. locs. Qed.
  #[local] Hint Resolve f_parse_twig_sw_include : loc.
  Lemma f_parse_shopware_twig_block_statement : forall outer child, loc (parse_shopware_twig_block_statement outer child).
  Proof. intros. unfold parse_shopware_twig_block_statement. locs. Qed.
  #[local] Hint Resolve f_parse_shopware_twig_block_statement : loc.
  Lemma f_parse_twig_block_statement : forall child, loc (parse_twig_block_statement child).
  Proof. intros. unfold parse_twig_block_statement. locs. Qed.
  #[local] Hint Resolve f_parse_twig_block_statement : loc.
  Lemma f_parse_ludtwig_directive : forall outer closing_kinds, loc (parse_ludtwig_directive outer closing_kinds).
  Proof. intros. unfold parse_ludtwig_directive. locs. Qed.
  #[local] Hint Resolve f_parse_ludtwig_directive : loc.
  Lemma f_parse_twig_plain_comment : forall outer, loc (parse_twig_plain_comment outer).
  Proof. intros. unfold parse_twig_plain_comment. locs. Qed.
  #[local] Hint Resolve f_parse_twig_plain_comment : loc.
  Lemma f_parse_twig_comment_statement : loc parse_twig_comment_statement.
  Proof. intros. unfold parse_twig_comment_statement. locs. Qed.
  #[local] Hint Resolve f_parse_twig_comment_statement : loc.
  Lemma f_parse_twig_var_statement : loc parse_twig_var_statement.
  Proof. intros. unfold parse_twig_var_statement. locs. Qed.
  #[local] Hint Resolve f_parse_twig_var_statement : loc.
  Lemma f_parse_any_twig : forall child, loc (parse_any_twig child).
  Proof. intros. unfold parse_any_twig. locs. Qed.
  #[local] Hint Resolve f_parse_any_twig : loc.
  Lemma f_parse_html_doctype : loc parse_html_doctype.
  Proof. intros. unfold parse_html_doctype. locs. Qed.
  #[local] Hint Resolve f_parse_html_doctype : loc.
  Lemma f_parse_html_text : loc parse_html_text.
  Proof. intros. unfold parse_html_text. locs. Qed.
  #[local] Hint Resolve f_parse_html_text : loc.
  Lemma f_body_raw_inner : loc body_raw_inner.
  Proof. intros. unfold body_raw_inner. locs. Qed.
  #[local] Hint Resolve f_body_raw_inner : loc.
  Lemma f_early_end_tag : forall tag_kind tag_name met, loc (early_end_tag tag_kind tag_name met).
  Proof. intros. unfold early_end_tag. locs. Qed.
  #[local] Hint Resolve f_early_end_tag : loc.
  Lemma f_parse_html_raw_text : forall tag_kind tag_name, loc (parse_html_raw_text tag_kind tag_name).
  Proof. intros. unfold parse_html_raw_text. locs. Qed.
  #[local] Hint Resolve f_parse_html_raw_text : loc.
  Lemma f_parse_plain_html_comment : forall outer, loc (parse_plain_html_comment outer).
  Proof. intros. unfold parse_plain_html_comment. locs. Qed.
  #[local] Hint Resolve f_parse_plain_html_comment : loc.
  Lemma f_parse_html_comment : loc parse_html_comment.
  Proof. intros. unfold parse_html_comment. locs. Qed.
  #[local] Hint Resolve f_parse_html_comment : loc.
  Lemma f_html_string_child : forall inner, loc (html_string_child inner).
  Proof. intros. unfold html_string_child. locs. Qed.
  #[local] Hint Resolve f_html_string_child : loc.
  Lemma f_inner_double_quote_parser : loc inner_double_quote_parser.
  Proof. intros. unfold inner_double_quote_parser. locs. Qed.
  #[local] Hint Resolve f_inner_double_quote_parser : loc.
  Lemma f_inner_single_quote_parser : loc inner_single_quote_parser.
  Proof. intros. unfold inner_single_quote_parser. locs. Qed.
  #[local] Hint Resolve f_inner_single_quote_parser : loc.
  Lemma f_inner_no_quote_parser : loc inner_no_quote_parser.
  Proof. intros. unfold inner_no_quote_parser. locs. Qed.
  #[local] Hint Resolve f_inner_no_quote_parser : loc.
  Lemma f_quote : forall q, loc match q with   | Some TK_DOUBLE_QUOTES => inner_double_quote_parser ;; Ret tt   | Some TK_SINGLE_QUOTES => inner_single_quote_parser ;; Ret tt   | None => inner_no_quote_parser   | Some _ => fail PUnreachable   end.
  Proof. assert (Q1 : loc (inner_double_quote_parser ;; Ret tt)) by (apply loc_bind; [apply f_inner_double_quote_parser|intros; apply loc_ret]).
    assert (Q2 : loc (inner_single_quote_parser ;; Ret tt)) by (apply loc_bind; [apply f_inner_single_quote_parser|intros; apply loc_ret]).
    assert (Q3 : loc (@fail unit PUnreachable)) by apply f_fail.
    intros [k|]; [|apply f_inner_no_quote_parser]. destruct k;
    lazymatch goal with
    | |- loc (fail _) => exact Q3
    | |- loc (bind inner_double_quote_parser _) => exact Q1
    | |- _ => exact Q2
    end. Qed.
  #[local] Hint Resolve f_quote : loc.
  Lemma f_parse_html_attribute_value_string : loc parse_html_attribute_value_string.
  Proof. intros. unfold parse_html_attribute_value_string. locs. Qed.
  #[local] Hint Resolve f_parse_html_attribute_value_string : loc.
  Lemma f_parse_html_attribute_rest : forall attribute_m, loc (parse_html_attribute_rest attribute_m).
  Proof. intros. unfold parse_html_attribute_rest. locs. Qed.
  #[local] Hint Resolve f_parse_html_attribute_rest : loc.
  Lemma f_body_attr : loc body_attr.
  Proof. intros. unfold body_attr. locs. Qed.
  #[local] Hint Resolve f_body_attr : loc.
  Lemma f_parse_attribute_list : loc parse_attribute_list.
  Proof. intros. unfold parse_attribute_list. locs. Qed.
  #[local] Hint Resolve f_parse_attribute_list : loc.
  Lemma f_parse_html_ending_tag : forall tag_kind tag_name met, loc (parse_html_ending_tag tag_kind tag_name met).
  Proof. intros. unfold parse_html_ending_tag. locs. Qed.
  #[local] Hint Resolve f_parse_html_ending_tag : loc.
  Lemma f_parse_html_element : loc parse_html_element.
  Proof. intros. unfold parse_html_element. locs. Qed.
  #[local] Hint Resolve f_parse_html_element : loc.
  Lemma f_parse_any_html : loc parse_any_html.
  Proof. intros. unfold parse_any_html. locs. Qed.
  #[local] Hint Resolve f_parse_any_html : loc.
  Lemma f_body_any : loc body_any.
  Proof. intros. unfold body_any. locs. Qed.
  #[local] Hint Resolve f_body_any : loc.
  Lemma f_body : forall c, loc (body c).
  Proof. intros. unfold body. locs. Qed.
  #[local] Hint Resolve f_body : loc.
  Lemma f_root : loc root.
  Proof. intros. unfold root. locs. Qed.
  #[local] Hint Resolve f_root : loc.
  Lemma f_root_body : loc root_body.
  Proof. intros. unfold root_body. locs. Qed.
  #[local] Hint Resolve f_root_body : loc.
End Run.

Lemma all_calls_local dbg A B M : nontriv B <> [] -> forall n c, late_from dbg A B M n (body c) /\ rel_from dbg A B M n (body c).
Proof.
  intros Am. induction n as [|n IH]; intros c.
  - split; [intros x n s a s' L; lia|intros x y n s1 s2 a1 a2 s1' s2' L; lia].
  - exact (f_body dbg A B M n Am IH c).
Qed.
Lemma root_local dbg A B M : nontriv B <> [] -> forall n, rel_from dbg A B M (S n) root.
Proof. intros Am n. exact (proj2 (f_root dbg A B M n Am (all_calls_local dbg A B M Am n))). Qed.

(** The errors about places before [M]. *)
Definition errors_before (M : nat) (errs : list perror) : list perror := filter (fun e => err_start e <? M) errs.
Lemma before_far M f : Forall (far M) f -> errors_before M f = [].
Proof. induction 1 as [|e f H _ IH]; [reflexivity|]. unfold errors_before in *. cbn [filter]. unfold far in H. destruct (Nat.ltb_spec (err_start e) M); [lia|exact IH]. Qed.
Lemma parse_errors_local dbg A b B x y src1 src2 t1 t2 errs1 errs2 : lex src1 = A ++ (b :: B) ++ x -> lex src2 = A ++ (b :: B) ++ y -> nontriv (b :: B) <> [] ->
  parse_src dbg src1 = OK (t1, errs1) -> parse_src dbg src2 = OK (t2, errs2) -> errors_before (tk_start b) errs1 = errors_before (tk_start b) errs2.
Proof.
  intros L1 L2 Am. unfold parse_src, parse_tokens, parser_parse. cbv zeta.
  destruct (run (cstep dbg) _ root (c_init (lex src1))) as [[a1 s1]|q|] eqn:E1; try discriminate. cbn [rbind fst snd]. destruct (c_open s1); [|discriminate]. cbn [rbind fst snd]. destruct (sink _ (c_events s1)) as [t1'|q|]; try discriminate. cbn [rbind fst snd]. intros H1. injection H1 as _ <-.
  destruct (run (cstep dbg) _ root (c_init (lex src2))) as [[a2 s2]|q|] eqn:E2; try discriminate. cbn [rbind fst snd]. destruct (c_open s2); [|discriminate]. cbn [rbind fst snd]. destruct (sink _ (c_events s2)) as [t2'|q|]; try discriminate. cbn [rbind fst snd]. intros H2. injection H2 as _ <-.
  assert (Good : forall src z, lex src = A ++ (b :: B) ++ z -> good (b :: B) (tk_start b) z).
  { intros src z L u I. pose proof (ErrOrder.chain_rising _ _ _ (lexed_chain _ _ _ (lex_lexed src))) as R. destruct I as [<-|I]; [lia|]. apply (R A b (B ++ z) L u I). }
  pose proof (Good _ _ L1) as G1. pose proof (Good _ _ L2) as G2. set (n := Nat.max (parse_fuel (lex src1)) (parse_fuel (lex src2))).
  rewrite <- (PropParser.run_fuel_mono _ _ _ _ _ _ ltac:(rewrite E1; discriminate) n) in E1 by (unfold n; lia).
  rewrite <- (PropParser.run_fuel_mono _ _ _ _ _ _ ltac:(rewrite E2; discriminate) n) in E2 by (unfold n; lia).
  assert (Ag : agree A (b :: B) x y (c_init (lex src1)) (c_init (lex src2))).
  { exists (A ++ b :: B), [], [], [], []. split; [reflexivity|]. unfold c_init. rewrite L1, L2. split; f_equal; apply app_assoc. }
  destruct (root_local dbg A (b :: B) (tk_start b) Am n x y n _ _ _ _ _ _ (Nat.lt_succ_diag_r n) G1 G2 Ag E1 E2) as [[_ (p & q & ev & op & es & _ & -> & ->)]|(_ & _ & E & f1 & f2 & F1 & F2 & Fa1 & Fa2)]; [reflexivity|].
  rewrite F1, F2. unfold errors_before. rewrite !filter_app. fold (errors_before (tk_start b) f1) (errors_before (tk_start b) f2). now rewrite (before_far _ _ Fa1), (before_far _ _ Fa2).
Qed.
