(** The order of the error messages of the parser.  Machinery for C81. *)
From Coq Require Import NArith String Bool Arith Lia List Sorted.
Import ListNotations.
From Verif Require Import Text Kind Regex Lexer LexerProofs ParserApi GrammarExpr GrammarTags GrammarHtml Machine Simulation.
Local Notation length := List.length (only parsing).
Local Open Scope list_scope.
Local Open Scope prog_scope.

Definition before (a b : perror) : Prop := err_start a <= err_start b.

(** * Positions *)
(** The tokens of a file start one after the other. *)
Definition rising (T : list token) : Prop := forall a t b, T = a ++ t :: b -> forall u, In u b -> tk_start t <= tk_start u.
Lemma chain_from a T e : LexerProofs.chain a T e -> forall u, In u T -> a <= tk_start u.
Proof.
  induction 1 as [|a t ts e S E _ _ IH]; [intros u []|]. intros u [<-|I]; [lia|]. specialize (IH u I). lia.
Qed.
Lemma chain_rising a T e : LexerProofs.chain a T e -> rising T.
Proof.
  induction 1 as [|a t ts e S E _ C IH]; intros x y z H u I; [destruct x; discriminate|]. destruct x as [|x0 x].
  - injection H as <- <-. pose proof (chain_from _ _ _ C u I). lia.
  - injection H as -> H. exact (IH _ _ _ H u I).
Qed.
Lemma last_in (T : list token) t q : rev T = t :: q -> In t T.
Proof. intros H. apply in_rev. rewrite H. now left. Qed.
Lemma rising_last T a t b u q : rising T -> T = a ++ t :: b -> rev T = u :: q -> tk_start t <= tk_start u.
Proof.
  intros R E L. destruct b as [|x b] using rev_ind.
  - rewrite E, rev_app_distr in L. cbn in L. injection L as <- _. lia.
  - assert (u = x) as ->. { rewrite E in L. rewrite app_comm_cons, app_assoc, rev_app_distr in L. cbn in L. now injection L as <- _. }
    apply (R a t _ E). apply in_or_app. right. now left.
Qed.
Lemma drop_suffix r : exists p, r = p ++ drop_trivia r.
Proof.
  induction r as [|t r [p IH]]; [now exists []|]. cbn [drop_trivia]. destruct (is_trivia (tk_kind t)); [|now exists []]. exists (t :: p). cbn [app]. now f_equal.
Qed.
Lemma drop_drop r : drop_trivia (drop_trivia r) = drop_trivia r.
Proof. induction r as [|t r IH]; [reflexivity|]. cbn [drop_trivia]. destruct (is_trivia (tk_kind t)) eqn:E; [exact IH|]. cbn [drop_trivia]. now rewrite E. Qed.
Lemma drop_in r u : In u (drop_trivia r) -> In u r.
Proof. destruct (drop_suffix r) as [p E]. intros I. rewrite E. apply in_or_app. now right. Qed.
Lemma drop_skip n r u : In u (drop_trivia (skipn n (drop_trivia r))) -> In u (drop_trivia r).
Proof. intros I. apply drop_in in I. rewrite <- (firstn_skipn n (drop_trivia r)). apply in_or_app. now right. Qed.

Section Run.
  Context (dbg : bool) (T : list token) (N : nat).
  Hypothesis Rise : rising T.
  Definition last_token : list token := match rev T with t :: _ => [t] | [] => [] end.
  (** The tokens a later message can be about. *)
  Definition ahead (rest : list token) : list token := drop_trivia rest ++ last_token.
  Definition Inv (s : cstate) : Prop :=
    c_toks s = T /\ (exists q, T = q ++ c_rest s) /\ StronglySorted before (c_errs s) /\
    forall e u, In e (c_errs s) -> In u (ahead (c_rest s)) -> err_start e <= tk_start u.
  Lemma last_after a t b u : T = a ++ t :: b -> In u last_token -> tk_start t <= tk_start u.
  Proof. unfold last_token. intros E I. destruct (rev T) as [|x q] eqn:L; [contradiction|]. destruct I as [<-|[]]. exact (rising_last _ _ _ _ _ _ Rise E L). Qed.
  Lemma sorted_snoc l e : StronglySorted before l -> (forall x, In x l -> before x e) -> StronglySorted before (l ++ [e]).
  Proof.
    induction 1 as [|x l S IH F]; intros B; cbn [app]; [constructor; constructor|]. constructor; [apply IH; intros y I; apply B; now right|].
    apply Forall_app. split; [exact F|]. constructor; [apply B; now left|constructor].
  Qed.
  (** Only the cursor moves. *)
  Lemma inv_move s s' : Inv s -> c_toks s' = c_toks s -> c_errs s' = c_errs s -> (exists q, c_rest s = q ++ c_rest s') -> incl (drop_trivia (c_rest s')) (drop_trivia (c_rest s)) -> Inv s'.
  Proof.
    intros (A & [q B] & C & D) E F [p G] H. split; [congruence|]. split; [exists (q ++ p); rewrite B, G; apply app_assoc|]. rewrite F. split; [exact C|].
    intros e u I J. apply (D e u I). apply in_app_or in J as [J|J]; apply in_or_app; [left; now apply H|now right].
  Qed.
  (** A message about the token [t] that was ahead. *)
  Lemma inv_add s s' t e : Inv s -> c_toks s' = T -> (exists q, T = q ++ c_rest s') -> c_errs s' = c_errs s ++ [e] -> err_start e = tk_start t ->
    In t (ahead (c_rest s)) -> (forall u, In u (ahead (c_rest s')) -> tk_start t <= tk_start u) -> Inv s'.
  Proof.
    intros (A & B & C & D) E F G H I J. split; [exact E|]. split; [exact F|]. rewrite G. split.
    - apply sorted_snoc; [exact C|]. intros x X. unfold before. rewrite H. exact (D x t X I).
    - intros x u X U. apply in_app_or in X as [X|[<-|[]]]; [|rewrite H; exact (J u U)]. pose proof (D x t X I). pose proof (J u U). lia.
  Qed.
  Definition about {B : Set} (o : op B) : bool := match o with AddErr _ (Some _) => true | _ => false end.
  Lemma rest_split s t l : Inv s -> drop_trivia (c_rest s) = t :: l -> exists q, T = q ++ t :: l.
  Proof. intros (_ & [q B] & _) E. destruct (drop_suffix (c_rest s)) as [p P]. rewrite E in P. exists (q ++ p). rewrite B, P. apply app_assoc. Qed.
  Lemma ahead_after q t l u : T = q ++ t :: l -> In u (drop_trivia l ++ last_token) -> tk_start t <= tk_start u.
  Proof. intros E U. apply in_app_or in U as [U|U]; [|exact (last_after _ _ _ _ E U)]. apply drop_in in U. exact (Rise _ _ _ E u U). Qed.
  Lemma inv_step (B : Set) (o : op B) s b s' : Inv s -> about o = false -> cstep dbg B o s = OK (b, s') -> Inv s'.
  Proof.
    intros V O E. destruct (drop_suffix (c_rest s)) as [p P].
    assert (Stay : forall s', c_toks s' = c_toks s -> c_errs s' = c_errs s -> c_rest s' = c_rest s -> Inv s').
    { intros s1 A1 A2 A3. apply (inv_move s); auto; rewrite A3; [now exists []|apply incl_refl]. }
    assert (Drop : forall s', c_toks s' = c_toks s -> c_errs s' = c_errs s -> c_rest s' = drop_trivia (c_rest s) -> Inv s').
    { intros s1 A1 A2 A3. apply (inv_move s); auto; rewrite A3; [now exists p|rewrite drop_drop; apply incl_refl]. }
    destruct o as [| |site as_|n kd| |e tok| |m kd|c|q|site f]; cbn [cstep] in E.
    - injection E as <- <-. apply Drop; reflexivity.
    - injection E as <- <-. exact V.
    - destruct (drop_trivia (c_rest s)) as [|t ts] eqn:Dr; [discriminate|]. injection E as <- <-. apply (inv_move s); cbn [c_toks c_errs c_rest]; auto.
      + exists (p ++ [t]). now rewrite <- app_assoc.
      + intros u I. rewrite Dr. right. now apply drop_in.
    - destruct (Nat.eqb _ n); [|discriminate]. injection E as <- <-. apply (inv_move s); cbn [c_toks c_errs c_rest]; auto.
      + exists (p ++ firstn n (drop_trivia (c_rest s))). rewrite <- app_assoc, firstn_skipn. exact P.
      + intros u I. exact (drop_skip _ _ _ I).
    - injection E as <- <-. apply Stay; reflexivity.
    - destruct tok as [tok|]; [discriminate O|]. destruct (error_here _ _ e) as [err|q|] eqn:Er; try discriminate. cbn [rbind] in E. injection E as <- <-.
      pose proof V as (Tk & [q Q] & _ & _). unfold error_here in Er. destruct (drop_trivia (c_rest s)) as [|t l] eqn:Dr.
      + rewrite Tk in Er. destruct (rev T) as [|t r] eqn:L; [discriminate|]. injection Er as <-. eapply (inv_add s _ t); [exact V|exact Tk| |reflexivity|reflexivity| |].
        * cbn [c_rest]. exists T. now rewrite app_nil_r.
        * unfold ahead, last_token. rewrite L. apply in_or_app. right. now left.
        * cbn [c_rest]. unfold ahead, last_token. rewrite L. intros u [<-|[]]. lia.
      + injection Er as <-. destruct (rest_split s t l V Dr) as [q' Q']. eapply (inv_add s _ t); [exact V|exact Tk|exists q'; exact Q'|reflexivity|reflexivity| |].
        * unfold ahead. rewrite Dr. now left.
        * cbn [c_rest]. unfold ahead. intros u U. replace (drop_trivia (t :: l)) with (t :: l) in U by (rewrite <- Dr; symmetry; apply drop_drop).
          cbn [app] in U. destruct U as [<-|U]; [lia|]. apply in_app_or in U as [U|U]; [exact (Rise _ _ _ Q' u U)|exact (last_after _ _ _ _ Q' U)].
    - injection E as <- <-. apply Stay; reflexivity.
    - unfold c_complete in E. destruct (dbg && _)%bool; [discriminate|]. destruct (nth_error _ m); [|discriminate]. destruct (dbg && _)%bool; [discriminate|]. injection E as <- <-. apply Stay; reflexivity.
    - unfold c_precede in E. unfold c_start in E; cbn [c_events] in E. match type of E with context [nth_error ?l c] => destruct (nth_error l c) as [[k0 fp| | | | |]|]; try discriminate end. injection E as <- <-. apply Stay; reflexivity.
    - discriminate.
    - destruct dbg; [destruct (f _); [|discriminate]|]; injection E as <- <-; [apply Drop; reflexivity|exact V].
  Qed.

  (** * Programs *)
  Local Notation steps n p s := (run (cstep dbg) n p s).
  Hypothesis Calls : forall c n s a s', n < N -> Inv s -> steps n (body c) s = OK (a, s') -> Inv s'.
  Definition fair {A : Set} (p : prog A) : Prop := forall n s a s', n <= N -> Inv s -> steps n p s = OK (a, s') -> Inv s'.
  Lemma fair_ret (A : Set) (a : A) : fair (Ret a).
  Proof. intros n s b s' _ V E. rewrite run_Ret in E. injection E as <- <-. exact V. Qed.
  Lemma fair_bind (A B : Set) (p : prog A) (g : A -> prog B) : fair p -> (forall a, fair (g a)) -> fair (bind p g).
  Proof.
    intros H G n s b s' L V E. rewrite run_bind in E. destruct (run _ n p s) as [[a s1]|q|] eqn:E1; try discriminate. cbn [rbind fst snd] in E.
    exact (G a _ _ _ _ L (H _ _ _ _ L V E1) E).
  Qed.
  Lemma fair_op (A B : Set) (o : op B) (g : B -> prog A) : about o = false -> (forall b, fair (g b)) -> fair (Op o g).
  Proof.
    intros O G n s a s' L V E. rewrite run_Op in E. destruct (cstep dbg B o s) as [[b s1]|q|] eqn:E1; try discriminate. cbn [rbind fst snd] in E.
    exact (G b _ _ _ _ L (inv_step _ _ _ _ _ V O E1) E).
  Qed.
  Lemma fair_prim (B : Set) (o : op B) : about o = false -> fair (prim o).
  Proof. intros O. apply fair_op; [exact O|]. intros. apply fair_ret. Qed.
  Lemma fair_look (B : Set) (f : list token -> B) : fair (look f).
  Proof. apply fair_op; [reflexivity|]. intros. apply fair_ret. Qed.
  (** The token [t] has just been taken, there can be a message about it. *)
  Definition Took (t : token) (s : cstate) : Prop := Inv s /\ (forall e, In e (c_errs s) -> err_start e <= tk_start t) /\ (forall u, In u (ahead (c_rest s)) -> tk_start t <= tk_start u).
  Definition taken {A : Set} (t : token) (p : prog A) : Prop := forall n s a s', n <= N -> Took t s -> steps n p s = OK (a, s') -> Inv s'.
  Lemma fair_take (A : Set) (g : token -> prog A) : (forall t, taken t (g t)) -> fair (bind bump g).
  Proof.
    intros G n s a s' L V E. unfold bump, prim in E. cbn [bind] in E. rewrite run_Op in E. destruct (cstep dbg _ _ s) as [[t s1]|q|] eqn:E1; try discriminate. cbn [rbind fst snd] in E.
    eapply (G t); [exact L| |exact E]. split; [refine (inv_step _ _ _ _ _ V _ E1); reflexivity|]. cbn [cstep] in E1. destruct (drop_trivia (c_rest s)) as [|u l] eqn:Dr; [discriminate|].
    injection E1 as <- <-. cbn [tk_start c_errs c_rest]. destruct (rest_split s u l V Dr) as [q Q]. split.
    - intros e I. apply V; [exact I|]. unfold ahead. rewrite Dr. now left.
    - intros x X. exact (ahead_after _ _ _ _ Q X).
  Qed.
  Lemma taken_fair (A : Set) t (p : prog A) : fair p -> taken t p.
  Proof. intros H n s a s' L [V _]. exact (H _ _ _ _ L V). Qed.
  Lemma taken_about (A : Set) e t (g : unit -> prog A) : fair (g tt) -> taken t (bind (add_error_at e t) g).
  Proof.
    intros G n s a s' L (V & C & D) E. unfold add_error_at, prim in E. cbn [bind] in E. rewrite run_Op in E. cbn [cstep rbind fst snd] in E.
    eapply (G _ _ _ _ L); [|exact E]. destruct V as (V1 & V2 & V3 & V4). split; [exact V1|]. split; [exact V2|]. cbn [c_errs c_rest]. split.
    - apply sorted_snoc; [exact V3|]. intros x X. exact (C x X).
    - intros x u X U. apply in_app_or in X as [X|[<-|[]]]; [exact (V4 x u X U)|]. exact (D u U).
  Qed.
  Lemma bind_unit n (p : prog unit) s : steps n p s = steps n (bind p (fun _ => Ret tt)) s.
  Proof. rewrite run_bind. destruct (run _ n p s) as [[[] s1]|q|]; cbn [rbind fst snd]; [now rewrite run_Ret|reflexivity|reflexivity]. Qed.
  Lemma taken_about_last e t : taken t (add_error_at e t).
  Proof. intros n s a s' L V E. rewrite bind_unit in E. exact (taken_about _ e t (fun _ => Ret tt) (fair_ret _ tt) n s a s' L V E). Qed.
  Lemma fair_call (A : Set) c (k : option nat -> prog A) : (forall a, fair (k a)) -> fair (Call c k).
  Proof.
    intros H n s a s' L V E. rewrite run_Call in E. destruct n as [|n]; [discriminate|].
    match type of E with rbind ?r _ = _ => destruct r as [[b s1]|q|] eqn:E1; try discriminate end. cbn [rbind fst snd] in E.
    refine (H b _ _ _ _ L (Calls c n _ _ _ _ V E1) E). lia.
  Qed.
  Lemma turns (X B : Set) (f : X -> prog (X + B)) : (forall x, fair (f x)) ->
    forall n x s b s', n <= N -> Inv s -> steps n (Iter f x (fun b => Ret b)) s = OK (b, s') -> Inv s'.
  Proof.
    intros H. induction n as [n IH] using (well_founded_induction lt_wf). intros x s b s' L V E. rewrite run_Iter in E.
    match type of E with rbind (rbind ?r _) _ = _ => destruct r as [[y s1]|q|] eqn:E1; try discriminate end. cbn [rbind fst snd] in E.
    pose proof (H x _ _ _ _ L V E1) as Z. destruct y as [x'|b'].
    - destruct n as [|n]; [discriminate E|]. match type of E with rbind ?r _ = _ => destruct r as [[z s2]|q|] eqn:E2; try discriminate end. cbn [rbind fst snd] in E.
      rewrite run_Ret in E. injection E as <- <-. eapply (IH n); [lia|lia|exact Z|exact E2].
    - cbn [rbind fst snd] in E. rewrite run_Ret in E. injection E as <- <-. exact Z.
  Qed.
  Lemma fair_iter (A X B : Set) (f : X -> prog (X + B)) x (k : B -> prog A) : (forall x, fair (f x)) -> (forall b, fair (k b)) -> fair (Iter f x k).
  Proof.
    intros H G n s a s' L V E. rewrite run_Iter in E. match type of E with rbind ?r _ = _ => destruct r as [[b s2]|q|] eqn:E2; try discriminate end. cbn [rbind fst snd] in E.
    refine (G b _ _ _ _ L _ E). apply (turns _ _ f H n x s b s2 L V). rewrite run_Iter, E2. cbn [rbind fst snd]. apply run_Ret.
  Qed.

  (** * Every function of the grammar *)
  Create HintDb fair discriminated.
  #[local] Hint Constants Opaque : fair.
  #[local] Hint Resolve fair_look : fair.
  Ltac fair1 :=
    lazymatch goal with
    | |- fair (Ret _) => apply fair_ret
    | |- fair (bind bump ?g) =>
      match g with
      | context [add_error_at] => apply fair_take; intros
      | _ => apply fair_bind; [|intros]
      end
    | |- taken _ (bind (add_error_at _ _) _) => apply taken_about
    | |- taken _ (add_error_at _ _) => apply taken_about_last
    | |- taken _ (if ?b then _ else _) => destruct b
    | |- taken _ (match ?x with _ => _ end) => destruct x
    | |- taken _ _ => apply taken_fair
    | |- fair (bind _ _) => apply fair_bind; [|intros]
    | |- fair (if ?b then _ else _) => destruct b
    | |- fair (match ?x with _ => _ end) => destruct x
    | |- fair (when ?b _) => unfold when
    | |- fair (parse_many_st _ _ _) => unfold parse_many_st
    | |- fair (parse_many _ _) => unfold parse_many
    | |- fair (parse_body _ _) => unfold parse_body
    | |- fair (Iter _ _ _) => apply fair_iter; intros
    | |- fair (Op _ _) => apply fair_op; [reflexivity|intros]
    | |- fair (Call _ _) => apply fair_call; intros
    | |- fair (prim _) => apply fair_prim; reflexivity
    | |- fair (complete _ _) => apply fair_prim; reflexivity
    | |- fair (debug_assert_site _ _) => apply fair_prim; reflexivity
    | |- fair explicitly_consume_trivia => apply fair_prim; reflexivity
    | |- fair _ => solve [auto with fair nocore]
    end.
  Ltac fairs := cbv beta iota zeta; repeat (fair1; cbv beta iota zeta).
  Lemma f_at_ : forall k, fair (at_ k).
  Proof. intros. unfold at_. fairs. Qed.
  #[local] Hint Resolve f_at_ : fair.
  Lemma f_at_set : forall s, fair (at_set s).
  Proof. intros. unfold at_set. fairs. Qed.
  #[local] Hint Resolve f_at_set : fair.
  Lemma f_at_end : fair at_end.
  Proof. intros. unfold at_end. fairs. Qed.
  #[local] Hint Resolve f_at_end : fair.
  Lemma f_at_following : forall s, fair (at_following s).
  Proof. intros. unfold at_following. fairs. Qed.
  #[local] Hint Resolve f_at_following : fair.
  Lemma f_at_following_content : forall s, fair (at_following_content s).
  Proof. intros. unfold at_following_content. fairs. Qed.
  #[local] Hint Resolve f_at_following_content : fair.
  Lemma f_at_twig_tag : forall k, fair (at_twig_tag k).
  Proof. intros. unfold at_twig_tag. fairs. Qed.
  #[local] Hint Resolve f_at_twig_tag : fair.
  Lemma f_at_twig_block_open : fair at_twig_block_open.
  Proof. intros. unfold at_twig_block_open. fairs. Qed.
  #[local] Hint Resolve f_at_twig_block_open : fair.
  Lemma f_at_twig_block_close : fair at_twig_block_close.
  Proof. intros. unfold at_twig_block_close. fairs. Qed.
  #[local] Hint Resolve f_at_twig_block_close : fair.
  Lemma f_at_twig_var_open : fair at_twig_var_open.
  Proof. intros. unfold at_twig_var_open. fairs. Qed.
  #[local] Hint Resolve f_at_twig_var_open : fair.
  Lemma f_at_twig_comment_open : fair at_twig_comment_open.
  Proof. intros. unfold at_twig_comment_open. fairs. Qed.
  #[local] Hint Resolve f_at_twig_comment_open : fair.
  Lemma f_peek_token : fair peek_token.
  Proof. intros. unfold peek_token. fairs. Qed.
  #[local] Hint Resolve f_peek_token : fair.
  Lemma f_peek_nth_token : forall n, fair (peek_nth_token n).
  Proof. intros. unfold peek_nth_token. fairs. Qed.
  #[local] Hint Resolve f_peek_nth_token : fair.
  Lemma f_get_pos : fair get_pos.
  Proof. intros. unfold get_pos. fairs. Qed.
  #[local] Hint Resolve f_get_pos : fair.
  Lemma f_bump : fair bump.
  Proof. intros. unfold bump. fairs. Qed.
  #[local] Hint Resolve f_bump : fair.
  Lemma f_bump_site : forall s, fair (bump_site s).
  Proof. intros. unfold bump_site. fairs. Qed.
  #[local] Hint Resolve f_bump_site : fair.
  Lemma f_bump_as : forall k, fair (bump_as k).
  Proof. intros. unfold bump_as. fairs. Qed.
  #[local] Hint Resolve f_bump_as : fair.
  Lemma f_bump_next_n_as : forall n k, fair (bump_next_n_as n k).
  Proof. intros. unfold bump_next_n_as. fairs. Qed.
  #[local] Hint Resolve f_bump_next_n_as : fair.
  Lemma f_start : fair start.
  Proof. intros. unfold start. fairs. Qed.
  #[local] Hint Resolve f_start : fair.
  Lemma f_precede : forall c, fair (precede c).
  Proof. intros. unfold precede. fairs. Qed.
  #[local] Hint Resolve f_precede : fair.
  Lemma f_fail : forall B p, fair (@fail B p).
  Proof. intros. unfold fail. fairs. Qed.
  #[local] Hint Resolve f_fail : fair.
  Lemma f_debug_assert : forall f, fair (debug_assert f).
  Proof. intros. unfold debug_assert. fairs. Qed.
  #[local] Hint Resolve f_debug_assert : fair.
  Lemma f_add_error : forall e, fair (add_error e).
  Proof. intros. unfold add_error. fairs. Qed.
  #[local] Hint Resolve f_add_error : fair.
  Lemma f_add_error_t : forall e, fair (add_error_t e).
  Proof. intros. unfold add_error_t. fairs. Qed.
  #[local] Hint Resolve f_add_error_t : fair.
  Lemma f_recover_expect : forall expected set, fair (recover_expect expected set).
  Proof. intros. unfold recover_expect. fairs. Qed.
  #[local] Hint Resolve f_recover_expect : fair.
  Lemma f_recover : forall set, fair (recover set).
  Proof. intros. unfold recover. fairs. Qed.
  #[local] Hint Resolve f_recover : fair.
  Lemma f_display : forall k, fair (display k).
  Proof. intros. unfold display. fairs. Qed.
  #[local] Hint Resolve f_display : fair.
  Lemma f_display_or : forall ks, fair (display_or ks).
  Proof. induction ks as [|k ks IH]; [apply fair_ret|]. cbn [display_or]. destruct ks; fairs. Qed.
  #[local] Hint Resolve f_display_or : fair.
  Lemma f_expect : forall k set, fair (expect k set).
  Proof. intros. unfold expect. fairs. Qed.
  #[local] Hint Resolve f_expect : fair.
  Lemma f_expect_any : forall ks set, fair (expect_any ks set).
  Proof. intros. unfold expect_any. fairs. Qed.
  #[local] Hint Resolve f_expect_any : fair.
  Lemma f_parse_twig_expression_binding_power : forall bp, fair (parse_twig_expression_binding_power bp).
  Proof. intros. unfold parse_twig_expression_binding_power. fairs. Qed.
  #[local] Hint Resolve f_parse_twig_expression_binding_power : fair.
  Lemma f_parse_twig_expression : fair parse_twig_expression.
  Proof. intros. unfold parse_twig_expression. fairs. Qed.
  #[local] Hint Resolve f_parse_twig_expression : fair.
  Lemma f_parse_twig_name : fair parse_twig_name.
  Proof. intros. unfold parse_twig_name. fairs. Qed.
  #[local] Hint Resolve f_parse_twig_name : fair.
  Lemma f_parse_twig_number : fair parse_twig_number.
  Proof. intros. unfold parse_twig_number. fairs. Qed.
  #[local] Hint Resolve f_parse_twig_number : fair.
  Lemma f_parse_twig_null : fair parse_twig_null.
  Proof. intros. unfold parse_twig_null. fairs. Qed.
  #[local] Hint Resolve f_parse_twig_null : fair.
  Lemma f_parse_twig_boolean : fair parse_twig_boolean.
  Proof. intros. unfold parse_twig_boolean. fairs. Qed.
  #[local] Hint Resolve f_parse_twig_boolean : fair.
  Lemma f_twig_string_child : forall quote_kind interpolation_allowed, fair (twig_string_child quote_kind interpolation_allowed).
  Proof. intros. unfold twig_string_child. fairs. Qed.
  #[local] Hint Resolve f_twig_string_child : fair.
  Lemma f_parse_twig_string : forall interpolation_allowed, fair (parse_twig_string interpolation_allowed).
  Proof. intros. unfold parse_twig_string. fairs. Qed.
  #[local] Hint Resolve f_parse_twig_string : fair.
  Lemma f_parse_twig_array : fair parse_twig_array.
  Proof. intros. unfold parse_twig_array. fairs. Qed.
  #[local] Hint Resolve f_parse_twig_array : fair.
  Lemma f_parse_twig_hash_key : fair parse_twig_hash_key.
  Proof. intros. unfold parse_twig_hash_key. fairs. Qed.
  #[local] Hint Resolve f_parse_twig_hash_key : fair.
  Lemma f_parse_twig_hash_pair : fair parse_twig_hash_pair.
  Proof. intros. unfold parse_twig_hash_pair. fairs. Qed.
  #[local] Hint Resolve f_parse_twig_hash_pair : fair.
  Lemma f_parse_twig_hash : fair parse_twig_hash.
  Proof. intros. unfold parse_twig_hash. fairs. Qed.
  #[local] Hint Resolve f_parse_twig_hash : fair.
  Lemma f_parse_twig_function_argument : fair parse_twig_function_argument.
  Proof. intros. unfold parse_twig_function_argument. fairs. Qed.
  #[local] Hint Resolve f_parse_twig_function_argument : fair.
  Lemma f_parse_arguments : forall closing, fair (parse_arguments closing).
  Proof. intros. unfold parse_arguments. fairs. Qed.
  #[local] Hint Resolve f_parse_arguments : fair.
  Lemma f_parse_twig_filter : forall last_node, fair (parse_twig_filter last_node).
  Proof. intros. unfold parse_twig_filter. fairs. Qed.
  #[local] Hint Resolve f_parse_twig_filter : fair.
  Lemma f_parse_twig_indexer : forall last_node, fair (parse_twig_indexer last_node).
  Proof. intros. unfold parse_twig_indexer. fairs. Qed.
  #[local] Hint Resolve f_parse_twig_indexer : fair.
  Lemma f_parse_twig_function : forall last_node, fair (parse_twig_function last_node).
  Proof. intros. unfold parse_twig_function. fairs. Qed.
  #[local] Hint Resolve f_parse_twig_function : fair.
  Lemma f_parse_twig_accessor : forall last_node, fair (parse_twig_accessor last_node).
  Proof. intros. unfold parse_twig_accessor. fairs. Qed.
  #[local] Hint Resolve f_parse_twig_accessor : fair.
  Lemma f_parse_twig_test_implicit_argument : forall last_node, fair (parse_twig_test_implicit_argument last_node).
  Proof. intros. unfold parse_twig_test_implicit_argument. fairs. Qed.
  #[local] Hint Resolve f_parse_twig_test_implicit_argument : fair.
  Lemma f_parse_twig_arrow_function : forall last_node, fair (parse_twig_arrow_function last_node).
  Proof. intros. unfold parse_twig_arrow_function. fairs. Qed.
  #[local] Hint Resolve f_parse_twig_arrow_function : fair.
  Lemma f_parse_postfix_operators : forall node, fair (parse_postfix_operators node).
  Proof. intros. unfold parse_postfix_operators. fairs. Qed.
  #[local] Hint Resolve f_parse_postfix_operators : fair.
  Lemma f_parse_twig_literal : fair parse_twig_literal.
  Proof. intros. unfold parse_twig_literal. fairs. Qed.
  #[local] Hint Resolve f_parse_twig_literal : fair.
  Lemma f_parse_conditional_expression : forall lhs, fair (parse_conditional_expression lhs).
  Proof. intros. unfold parse_conditional_expression. fairs. Qed.
  #[local] Hint Resolve f_parse_conditional_expression : fair.
  Lemma f_binary_loop : forall minimum_binding_power lhs, fair (binary_loop minimum_binding_power lhs).
  Proof. intros. unfold binary_loop. fairs. Qed.
  #[local] Hint Resolve f_binary_loop : fair.
  Lemma f_parse_twig_expression_binding_power_rhs : forall minimum_binding_power lhs, fair (parse_twig_expression_binding_power_rhs minimum_binding_power lhs).
  Proof. intros. unfold parse_twig_expression_binding_power_rhs. fairs. Qed.
  #[local] Hint Resolve f_parse_twig_expression_binding_power_rhs : fair.
  Lemma f_parse_paren_expression : fair parse_paren_expression.
  Proof. intros. unfold parse_paren_expression. fairs. Qed.
  #[local] Hint Resolve f_parse_paren_expression : fair.
  Lemma f_parse_paren_arrow_function : forall m, fair (parse_paren_arrow_function m).
  Proof. intros. unfold parse_paren_arrow_function. fairs. Qed.
  #[local] Hint Resolve f_parse_paren_arrow_function : fair.
  Lemma f_parse_unary_expression : fair parse_unary_expression.
  Proof. intros. unfold parse_unary_expression. fairs. Qed.
  #[local] Hint Resolve f_parse_unary_expression : fair.
  Lemma f_parse_twig_expression_lhs : fair parse_twig_expression_lhs.
  Proof. intros. unfold parse_twig_expression_lhs. fairs. Qed.
  #[local] Hint Resolve f_parse_twig_expression_lhs : fair.
  Lemma f_body_expression : forall minimum_binding_power, fair (body_expression minimum_binding_power).
  Proof. intros. unfold body_expression. fairs. Qed.
  #[local] Hint Resolve f_body_expression : fair.
  Lemma f_at_twig_termination_tag : fair at_twig_termination_tag.
  Proof. intros. unfold at_twig_termination_tag. fairs. Qed.
  #[local] Hint Resolve f_at_twig_termination_tag : fair.
  Lemma f_call_child : forall f, fair (call_child f).
  Proof. intros. unfold call_child. fairs. Qed.
  #[local] Hint Resolve f_call_child : fair.
  Lemma f_parse_ending : forall kw r1 r2 r3 node, fair (parse_ending kw r1 r2 r3 node).
  Proof. intros. unfold parse_ending. fairs. Qed.
  #[local] Hint Resolve f_parse_ending : fair.
  Lemma f_expression_or : forall msg set, fair (expression_or msg set).
  Proof. intros. unfold expression_or. fairs. Qed.
  #[local] Hint Resolve f_expression_or : fair.
  Lemma f_name_or : forall msg set, fair (name_or msg set).
  Proof. intros. unfold name_or. fairs. Qed.
  #[local] Hint Resolve f_name_or : fair.
  Lemma f_string_or : forall msg set, fair (string_or msg set).
  Proof. intros. unfold string_or. fairs. Qed.
  #[local] Hint Resolve f_string_or : fair.
  Lemma f_opt_bump : forall k, fair (opt_bump k).
  Proof. intros. unfold opt_bump. fairs. Qed.
  #[local] Hint Resolve f_opt_bump : fair.
  Lemma f_parse_twig_cache : forall outer child, fair (parse_twig_cache outer child).
  Proof. intros. unfold parse_twig_cache. fairs. Qed.
  #[local] Hint Resolve f_parse_twig_cache : fair.
  Lemma f_parse_twig_with : forall outer child, fair (parse_twig_with outer child).
  Proof. intros. unfold parse_twig_with. fairs. Qed.
  #[local] Hint Resolve f_parse_twig_with : fair.
  Lemma f_parse_end_name : forall what name, fair (parse_end_name what name).
  Proof. intros. unfold parse_end_name. fairs. Qed.
  #[local] Hint Resolve f_parse_end_name : fair.
  Lemma f_parse_twig_macro : forall outer child, fair (parse_twig_macro outer child).
  Proof. intros. unfold parse_twig_macro. fairs. Qed.
  #[local] Hint Resolve f_parse_twig_macro : fair.
  Lemma f_parse_twig_verbatim : forall outer child, fair (parse_twig_verbatim outer child).
  Proof. intros. unfold parse_twig_verbatim. fairs. Qed.
  #[local] Hint Resolve f_parse_twig_verbatim : fair.
  Lemma f_parse_twig_sandbox : forall outer child, fair (parse_twig_sandbox outer child).
  Proof. intros. unfold parse_twig_sandbox. fairs. Qed.
  #[local] Hint Resolve f_parse_twig_sandbox : fair.
  Lemma f_parse_twig_flush : forall outer, fair (parse_twig_flush outer).
  Proof. intros. unfold parse_twig_flush. fairs. Qed.
  #[local] Hint Resolve f_parse_twig_flush : fair.
  Lemma f_parse_twig_do : forall outer, fair (parse_twig_do outer).
  Proof. intros. unfold parse_twig_do. fairs. Qed.
  #[local] Hint Resolve f_parse_twig_do : fair.
  Lemma f_parse_twig_deprecated : forall outer, fair (parse_twig_deprecated outer).
  Proof. intros. unfold parse_twig_deprecated. fairs. Qed.
  #[local] Hint Resolve f_parse_twig_deprecated : fair.
  Lemma f_parse_twig_autoescape : forall outer child, fair (parse_twig_autoescape outer child).
  Proof. intros. unfold parse_twig_autoescape. fairs. Qed.
  #[local] Hint Resolve f_parse_twig_autoescape : fair.
  Lemma f_parse_twig_apply : forall outer child, fair (parse_twig_apply outer child).
  Proof. intros. unfold parse_twig_apply. fairs. Qed.
  #[local] Hint Resolve f_parse_twig_apply : fair.
  Lemma f_parse_twig_import : forall outer, fair (parse_twig_import outer).
  Proof. intros. unfold parse_twig_import. fairs. Qed.
  #[local] Hint Resolve f_parse_twig_import : fair.
  Lemma f_parse_name_as_name_override : forall expected_description, fair (parse_name_as_name_override expected_description).
  Proof. intros. unfold parse_name_as_name_override. fairs. Qed.
  #[local] Hint Resolve f_parse_name_as_name_override : fair.
  Lemma f_parse_overrides : forall desc, fair (parse_overrides desc).
  Proof. intros. unfold parse_overrides. fairs. Qed.
  #[local] Hint Resolve f_parse_overrides : fair.
  Lemma f_parse_twig_from : forall outer, fair (parse_twig_from outer).
  Proof. intros. unfold parse_twig_from. fairs. Qed.
  #[local] Hint Resolve f_parse_twig_from : fair.
  Lemma f_parse_twig_use : forall outer, fair (parse_twig_use outer).
  Proof. intros. unfold parse_twig_use. fairs. Qed.
  #[local] Hint Resolve f_parse_twig_use : fair.
  Lemma f_parse_include_with : forall set, fair (parse_include_with set).
  Proof. intros. unfold parse_include_with. fairs. Qed.
  #[local] Hint Resolve f_parse_include_with : fair.
  Lemma f_parse_twig_embed : forall outer child, fair (parse_twig_embed outer child).
  Proof. intros. unfold parse_twig_embed. fairs. Qed.
  #[local] Hint Resolve f_parse_twig_embed : fair.
  Lemma f_parse_twig_include : forall outer, fair (parse_twig_include outer).
  Proof. intros. unfold parse_twig_include. fairs. Qed.
  #[local] Hint Resolve f_parse_twig_include : fair.
  Lemma f_parse_twig_extends : forall outer, fair (parse_twig_extends outer).
  Proof. intros. unfold parse_twig_extends. fairs. Qed.
  #[local] Hint Resolve f_parse_twig_extends : fair.
  Lemma f_parse_twig_for : forall outer child, fair (parse_twig_for outer child).
  Proof. intros. unfold parse_twig_for. fairs. Qed.
  #[local] Hint Resolve f_parse_twig_for : fair.
  Lemma f_parse_set_assignment : fair parse_set_assignment.
  Proof. intros. unfold parse_set_assignment. fairs. Qed.
  #[local] Hint Resolve f_parse_set_assignment : fair.
  Lemma f_parse_twig_set : forall outer child, fair (parse_twig_set outer child).
  Proof. intros. unfold parse_twig_set. fairs. Qed.
  #[local] Hint Resolve f_parse_twig_set : fair.
  Lemma f_parse_twig_block : forall outer child, fair (parse_twig_block outer child).
  Proof. intros. unfold parse_twig_block. fairs. Qed.
  #[local] Hint Resolve f_parse_twig_block : fair.
  Lemma f_parse_if_branches : forall child, fair (parse_if_branches child).
  Proof. intros. unfold parse_if_branches. fairs. Qed.
  #[local] Hint Resolve f_parse_if_branches : fair.
  Lemma f_parse_twig_if : forall outer child, fair (parse_twig_if outer child).
  Proof. intros. unfold parse_twig_if. fairs. Qed.
  #[local] Hint Resolve f_parse_twig_if : fair.
  Lemma f_parse_twig_trans : forall outer child, fair (parse_twig_trans outer child).
  Proof. intros. unfold parse_twig_trans. fairs. Qed.
  #[local] Hint Resolve f_parse_twig_trans : fair.
  Lemma f_parse_twig_props : forall outer, fair (parse_twig_props outer).
  Proof. intros. unfold parse_twig_props. fairs. Qed.
  #[local] Hint Resolve f_parse_twig_props : fair.
  Lemma f_parse_twig_component : forall outer child, fair (parse_twig_component outer child).
  Proof. intros. unfold parse_twig_component. fairs. Qed.
  #[local] Hint Resolve f_parse_twig_component : fair.
  Lemma f_parse_twig_sw_thumbnails : forall outer, fair (parse_twig_sw_thumbnails outer).
  Proof. intros. unfold parse_twig_sw_thumbnails. fairs. Qed.
  #[local] Hint Resolve f_parse_twig_sw_thumbnails : fair.
  Lemma f_parse_twig_sw_icon : forall outer, fair (parse_twig_sw_icon outer).
  Proof. intros. unfold parse_twig_sw_icon. fairs. Qed.
  #[local] Hint Resolve f_parse_twig_sw_icon : fair.
  Lemma f_parse_twig_sw_return : forall outer, fair (parse_twig_sw_return outer).
  Proof. intros. unfold parse_twig_sw_return. fairs. Qed.
  #[local] Hint Resolve f_parse_twig_sw_return : fair.
  Lemma f_parse_twig_sw_silent_feature_call : forall outer child, fair (parse_twig_sw_silent_feature_call outer child).
  Proof. intros. unfold parse_twig_sw_silent_feature_call. fairs. Qed.
  #[local] Hint Resolve f_parse_twig_sw_silent_feature_call : fair.
  Lemma f_parse_twig_sw_extends : forall outer, fair (parse_twig_sw_extends outer).
  Proof. intros. unfold parse_twig_sw_extends. fairs. Qed.
  #[local] Hint Resolve f_parse_twig_sw_extends : fair.
  Lemma f_parse_twig_sw_include : forall outer, fair (parse_twig_sw_include outer).
  Proof. intros. unfold parse_twig_sw_include. fairs. Qed.
  #[local] Hint Resolve f_parse_twig_sw_include : fair.
  Lemma f_parse_shopware_twig_block_statement : forall outer child, fair (parse_shopware_twig_block_statement outer child).
  Proof. intros. unfold parse_shopware_twig_block_statement. fairs. Qed.
  #[local] Hint Resolve f_parse_shopware_twig_block_statement : fair.
  Lemma f_parse_twig_block_statement : forall child, fair (parse_twig_block_statement child).
  Proof. intros. unfold parse_twig_block_statement. fairs. Qed.
  #[local] Hint Resolve f_parse_twig_block_statement : fair.
  Lemma f_parse_ludtwig_directive : forall outer closing_kinds, fair (parse_ludtwig_directive outer closing_kinds).
  Proof. intros. unfold parse_ludtwig_directive. fairs. Qed.
  #[local] Hint Resolve f_parse_ludtwig_directive : fair.
  Lemma f_parse_twig_plain_comment : forall outer, fair (parse_twig_plain_comment outer).
  Proof. intros. unfold parse_twig_plain_comment. fairs. Qed.
  #[local] Hint Resolve f_parse_twig_plain_comment : fair.
  Lemma f_parse_twig_comment_statement : fair parse_twig_comment_statement.
  Proof. intros. unfold parse_twig_comment_statement. fairs. Qed.
  #[local] Hint Resolve f_parse_twig_comment_statement : fair.
  Lemma f_parse_twig_var_statement : fair parse_twig_var_statement.
  Proof. intros. unfold parse_twig_var_statement. fairs. Qed.
  #[local] Hint Resolve f_parse_twig_var_statement : fair.
  Lemma f_parse_any_twig : forall child, fair (parse_any_twig child).
  Proof. intros. unfold parse_any_twig. fairs. Qed.
  #[local] Hint Resolve f_parse_any_twig : fair.
  Lemma f_parse_html_doctype : fair parse_html_doctype.
  Proof. intros. unfold parse_html_doctype. fairs. Qed.
  #[local] Hint Resolve f_parse_html_doctype : fair.
  Lemma f_parse_html_text : fair parse_html_text.
  Proof. intros. unfold parse_html_text. fairs. Qed.
  #[local] Hint Resolve f_parse_html_text : fair.
  Lemma f_body_raw_inner : fair body_raw_inner.
  Proof. intros. unfold body_raw_inner. fairs. Qed.
  #[local] Hint Resolve f_body_raw_inner : fair.
  Lemma f_early_end_tag : forall tag_kind tag_name met, fair (early_end_tag tag_kind tag_name met).
  Proof. intros. unfold early_end_tag. fairs. Qed.
  #[local] Hint Resolve f_early_end_tag : fair.
  Lemma f_parse_html_raw_text : forall tag_kind tag_name, fair (parse_html_raw_text tag_kind tag_name).
  Proof. intros. unfold parse_html_raw_text. fairs. Qed.
  #[local] Hint Resolve f_parse_html_raw_text : fair.
  Lemma f_parse_plain_html_comment : forall outer, fair (parse_plain_html_comment outer).
  Proof. intros. unfold parse_plain_html_comment. fairs. Qed.
  #[local] Hint Resolve f_parse_plain_html_comment : fair.
  Lemma f_parse_html_comment : fair parse_html_comment.
  Proof. intros. unfold parse_html_comment. fairs. Qed.
  #[local] Hint Resolve f_parse_html_comment : fair.
  Lemma f_html_string_child : forall inner, fair (html_string_child inner).
  Proof. intros. unfold html_string_child. fairs. Qed.
  #[local] Hint Resolve f_html_string_child : fair.
  Lemma f_inner_double_quote_parser : fair inner_double_quote_parser.
  Proof. intros. unfold inner_double_quote_parser. fairs. Qed.
  #[local] Hint Resolve f_inner_double_quote_parser : fair.
  Lemma f_inner_single_quote_parser : fair inner_single_quote_parser.
  Proof. intros. unfold inner_single_quote_parser. fairs. Qed.
  #[local] Hint Resolve f_inner_single_quote_parser : fair.
  Lemma f_inner_no_quote_parser : fair inner_no_quote_parser.
  Proof. intros. unfold inner_no_quote_parser. fairs. Qed.
  #[local] Hint Resolve f_inner_no_quote_parser : fair.
  Lemma f_quote : forall q, fair match q with   | Some TK_DOUBLE_QUOTES => inner_double_quote_parser ;; Ret tt   | Some TK_SINGLE_QUOTES => inner_single_quote_parser ;; Ret tt   | None => inner_no_quote_parser   | Some _ => fail PUnreachable   end.
  Proof. assert (A : fair (inner_double_quote_parser ;; Ret tt)) by (apply fair_bind; [apply f_inner_double_quote_parser|intros; apply fair_ret]).
    assert (B : fair (inner_single_quote_parser ;; Ret tt)) by (apply fair_bind; [apply f_inner_single_quote_parser|intros; apply fair_ret]).
    assert (C : fair (@fail unit PUnreachable)) by apply f_fail.
    intros [k|]; [|apply f_inner_no_quote_parser]. destruct k;
    lazymatch goal with
    | |- fair (fail _) => exact C
    | |- fair (bind inner_double_quote_parser _) => exact A
    | |- _ => exact B
    end. Qed.
  #[local] Hint Resolve f_quote : fair.
  Lemma f_parse_html_attribute_value_string : fair parse_html_attribute_value_string.
  Proof. intros. unfold parse_html_attribute_value_string. fairs. Qed.
  #[local] Hint Resolve f_parse_html_attribute_value_string : fair.
  Lemma f_parse_html_attribute_rest : forall attribute_m, fair (parse_html_attribute_rest attribute_m).
  Proof. intros. unfold parse_html_attribute_rest. fairs. Qed.
  #[local] Hint Resolve f_parse_html_attribute_rest : fair.
  Lemma f_body_attr : fair body_attr.
  Proof. intros. unfold body_attr. fairs. Qed.
  #[local] Hint Resolve f_body_attr : fair.
  Lemma f_parse_attribute_list : fair parse_attribute_list.
  Proof. intros. unfold parse_attribute_list. fairs. Qed.
  #[local] Hint Resolve f_parse_attribute_list : fair.
  Lemma f_parse_html_ending_tag : forall tag_kind tag_name met, fair (parse_html_ending_tag tag_kind tag_name met).
  Proof. intros. unfold parse_html_ending_tag. fairs. Qed.
  #[local] Hint Resolve f_parse_html_ending_tag : fair.
  Lemma f_parse_html_element : fair parse_html_element.
  Proof. intros. unfold parse_html_element. fairs. Qed.
  #[local] Hint Resolve f_parse_html_element : fair.
  Lemma f_parse_any_html : fair parse_any_html.
  Proof. intros. unfold parse_any_html. fairs. Qed.
  #[local] Hint Resolve f_parse_any_html : fair.
  Lemma f_body_any : fair body_any.
  Proof. intros. unfold body_any. fairs. Qed.
  #[local] Hint Resolve f_body_any : fair.
  Lemma f_body : forall c, fair (body c).
  Proof. intros. unfold body. fairs. Qed.
  #[local] Hint Resolve f_body : fair.
  Lemma f_root : fair root.
  Proof. intros. unfold root. fairs. Qed.
  #[local] Hint Resolve f_root : fair.
  Lemma f_root_body : fair root_body.
  Proof. intros. unfold root_body. fairs. Qed.
  #[local] Hint Resolve f_root_body : fair.
End Run.

Lemma all_calls_fair dbg T : rising T -> forall n c s a s', Inv T s -> run (cstep dbg) n (body c) s = OK (a, s') -> Inv T s'.
Proof.
  intros R. induction n as [n IH] using (well_founded_induction lt_wf). intros c s a s' V E.
  refine (f_body dbg T n R _ c n s a s' (Nat.le_refl n) V E). intros c' m s1 a1 s2 L. apply IH. exact L.
Qed.
Lemma parse_errors_sorted dbg src t errs : parse_src dbg src = OK (t, errs) -> StronglySorted before errs.
Proof.
  unfold parse_src, parse_tokens, parser_parse. cbv zeta. destruct (run (cstep dbg) _ root _) as [[a s]|q|] eqn:E; try discriminate. cbn [rbind fst snd].
  destruct (c_open s); [|discriminate]. cbn [rbind fst snd]. destruct (sink _ _) as [t'|q|]; try discriminate. cbn [rbind fst snd]. intros H. injection H as _ <-.
  pose proof (chain_rising _ _ _ (lexed_chain _ _ _ (lex_lexed src))) as R.
  assert (V : Inv (lex src) s).
  { refine (f_root dbg (lex src) _ R _ _ _ _ _ (Nat.le_refl _) _ E); [intros c n s1 a1 s2 _; apply all_calls_fair; exact R|].
    split; [reflexivity|]. split; [now exists []|]. split; [constructor|]. intros e u []. }
  apply V.
Qed.
