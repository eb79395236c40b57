(** Partial-correctness rules for grammar programs that meet the tokens they expect: the
    program consumes them and reports no error.  Used for the theorem that every template
    of the grammar in AccSpec.v is accepted (PropAccept.v). *)
From Coq Require Import NArith String Bool Arith Lia List.
Import ListNotations.
From Verif Require Import Text Kind Regex Lexer LexerProofs ParserApi GrammarExpr GrammarTags GrammarHtml Machine TreeMachine Simulation.
Local Notation length := List.length (only parsing).
Local Open Scope list_scope.

(** * Token lists as the lexer makes them *)

(** Kinds whose tokens have a fixed text that is no name, and numbers. *)
Definition PUNCT : list kind :=
  [TK_DOT; TK_DOUBLE_DOT; TK_TRIPLE_DOT; TK_COMMA; TK_COLON; TK_SEMICOLON; TK_EXCLAMATION_MARK;
   TK_EXCLAMATION_MARK_EQUALS; TK_EXCLAMATION_MARK_DOUBLE_EQUALS; TK_QUESTION_MARK; TK_DOUBLE_QUESTION_MARK;
   TK_PERCENT; TK_TILDE; TK_SINGLE_PIPE; TK_DOUBLE_PIPE; TK_AMPERSAND; TK_DOUBLE_AMPERSAND; TK_FORWARD_SLASH;
   TK_DOUBLE_FORWARD_SLASH; TK_BACKWARD_SLASH; TK_OPEN_PARENTHESIS; TK_CLOSE_PARENTHESIS; TK_OPEN_CURLY;
   TK_CLOSE_CURLY; TK_OPEN_SQUARE; TK_CLOSE_SQUARE; TK_LESS_THAN; TK_LESS_THAN_EQUAL;
   TK_LESS_THAN_EQUAL_GREATER_THAN; TK_LESS_THAN_SLASH; TK_LESS_THAN_EXCLAMATION_MARK; TK_GREATER_THAN;
   TK_GREATER_THAN_EQUAL; TK_EQUAL_GREATER_THAN; TK_SLASH_GREATER_THAN;
   TK_LESS_THAN_EXCLAMATION_MARK_MINUS_MINUS; TK_MINUS_MINUS_GREATER_THAN; TK_EQUAL; TK_DOUBLE_EQUAL;
   TK_TRIPLE_EQUAL; TK_PLUS; TK_MINUS; TK_STAR; TK_DOUBLE_STAR; TK_DOUBLE_QUOTES; TK_SINGLE_QUOTES;
   TK_GRAVE_ACCENT_QUOTES; TK_CURLY_PERCENT; TK_CURLY_PERCENT_MINUS; TK_CURLY_PERCENT_TILDE; TK_PERCENT_CURLY;
   TK_MINUS_PERCENT_CURLY; TK_TILDE_PERCENT_CURLY; TK_OPEN_CURLY_CURLY; TK_OPEN_CURLY_CURLY_MINUS;
   TK_OPEN_CURLY_CURLY_TILDE; TK_CLOSE_CURLY_CURLY; TK_MINUS_CLOSE_CURLY_CURLY; TK_TILDE_CLOSE_CURLY_CURLY;
   TK_OPEN_CURLY_HASHTAG; TK_OPEN_CURLY_HASHTAG_MINUS; TK_OPEN_CURLY_HASHTAG_TILDE; TK_HASHTAG_CLOSE_CURLY;
   TK_MINUS_HASHTAG_CLOSE_CURLY; TK_TILDE_HASHTAG_CLOSE_CURLY; TK_HASHTAG; TK_NUMBER;
   TK_WHITESPACE; TK_LINE_BREAK].

Definition tok_ok (t : token) : Prop :=
  mem_kind (tk_kind t) PUNCT = true ->
  rfull TWIG_NAME_REGEX (tk_text t) = false /\ rfull HTML_TAG_NAME_REGEX (tk_text t) = false /\
  rfull HTML_ATTRIBUTE_NAME_REGEX (tk_text t) = false.

Fixpoint contiguous (l : list token) : Prop :=
  match l with
  | [] => True
  | t :: l' => tk_start t < tk_end t /\ match l' with [] => True | u :: _ => tk_end t = tk_start u end /\ contiguous l'
  end.

Definition lexed (l : list token) : Prop := contiguous l /\ Forall tok_ok l.

Lemma lexed_suffix : forall p l, lexed (p ++ l) -> lexed l.
Proof.
  induction p as [|t p IH]; intros l [C F]; [split; auto|]. apply IH. split.
  - exact (proj2 (proj2 C)).
  - now inversion F.
Qed.

Lemma nontriv_drop : forall l, nontriv (drop_trivia l) = nontriv l.
Proof.
  induction l as [|t l IH]; [reflexivity|]. cbn [drop_trivia nontriv filter].
  destruct (is_trivia (tk_kind t)) eqn:E; cbn [negb]; [exact IH|]. cbn [nontriv filter]. now rewrite E.
Qed.

Lemma drop_split : forall l, exists p, l = p ++ drop_trivia l.
Proof. intros l. exists (take_trivia l). now rewrite take_drop_trivia. Qed.

(** The rest of the input after its white space, when its next token is known. *)
Lemma drop_head : forall l t ts, nontriv l = t :: ts -> exists r, drop_trivia l = t :: r /\ nontriv r = ts.
Proof.
  induction l as [|u l IH]; intros t ts E; [discriminate|]. cbn [nontriv filter drop_trivia] in *.
  destruct (is_trivia (tk_kind u)) eqn:K; cbn [negb] in E; [now apply IH|].
  injection E as -> E. exists l. split; [reflexivity|exact E].
Qed.

Lemma drop_nil : forall l, nontriv l = [] -> drop_trivia l = [].
Proof.
  induction l as [|u l IH]; intros E; [reflexivity|]. cbn [nontriv filter drop_trivia] in *.
  destruct (is_trivia (tk_kind u)) eqn:K; cbn [negb] in E; [now apply IH|discriminate].
Qed.

Lemma nontriv_head : forall l t ts, nontriv l = t :: ts -> is_trivia (tk_kind t) = false.
Proof.
  intros l t ts E. assert (H : In t (nontriv l)) by (rewrite E; now left).
  unfold nontriv in H. apply filter_In in H as [_ H]. now destruct (is_trivia _).
Qed.

Lemma first_start : forall r v u ts, contiguous (v :: r) -> nontriv (v :: r) = u :: ts -> tk_start v <= tk_start u.
Proof.
  induction r as [|w r IH]; intros v u ts C E; cbn [nontriv filter] in E; destruct (is_trivia (tk_kind v)); cbn [negb] in E.
  - discriminate.
  - injection E as -> _. lia.
  - destruct C as (C1 & C2 & C3). specialize (IH w u ts C3 E). lia.
  - injection E as -> _. lia.
Qed.

(** Two tokens without anything between them follow one another in the input, too. *)
Lemma drop_head2 : forall l t u ts, lexed l -> nontriv l = t :: u :: ts -> tk_end t = tk_start u ->
  exists r, drop_trivia l = t :: u :: r /\ nontriv r = ts.
Proof.
  intros l t u ts L E A. destruct (drop_head _ _ _ E) as (r & D & R).
  destruct (drop_split l) as (p & Ep). rewrite D in Ep. rewrite Ep in L. apply lexed_suffix in L as [C _].
  destruct r as [|v r]; [discriminate|]. destruct C as (_ & C1 & C2).
  pose proof R as R'. cbn [nontriv filter] in R. destruct (is_trivia (tk_kind v)) eqn:K; cbn [negb] in R.
  - exfalso. destruct C2 as (C2 & C3 & C4). destruct r as [|w r]; [discriminate|].
    pose proof (first_start _ _ _ _ C4 R). lia.
  - injection R as -> R. eauto.
Qed.

(** * Runs without errors *)

(** Panics of the marker bookkeeping: excluded for every input by C07. *)
Definition fine (q : panic) : Prop :=
  q = PMarkerOrder \/ q = PMarkerPlaceholder \/ q = PMarkerIndex \/ q = PPrecede.

(** The remaining tokens, white space aside, are [l]. *)
Definition good (l : list token) (s : cstate) : Prop :=
  nontriv (c_rest s) = l /\ lexed (c_rest s) /\ exists p, c_toks s = p ++ c_rest s.

Definition after (s s' : cstate) : Prop :=
  c_toks s' = c_toks s /\ c_errs s' = c_errs s /\ exists p, c_rest s = p ++ c_rest s'.

Section Acc.
  Context (dbg : bool).

  Definition post {A : Type} (s : cstate) (Q : A -> list token -> Prop) (r : res (A * cstate)) : Prop :=
    match r with
    | OK (a, s') => exists l', good l' s' /\ after s s' /\ Q a l'
    | Panicked q => fine q
    | NoFuel => True
    end.

  (** Started on the tokens [l], the program [p] reports no error, does not crash, and gives a
      result that satisfies [Q] together with the remaining tokens. *)
  Definition acc (N : nat) {A : Set} (p : prog A) (l : list token) (Q : A -> list token -> Prop) : Prop :=
    forall n s, n <= N -> good l s -> post s Q (run (cstep dbg) n p s).

  Lemma after_refl : forall s, after s s.
  Proof. intros s. repeat split. now exists []. Qed.
  Lemma after_trans : forall a b c, after a b -> after b c -> after a c.
  Proof.
    intros a b c (H1 & H2 & p & H3) (H4 & H5 & q & H6). repeat split; [congruence|congruence|].
    exists (p ++ q). now rewrite H3, H6, app_assoc.
  Qed.

  Lemma acc_le : forall N N' (A : Set) (p : prog A) l Q, N' <= N -> acc N p l Q -> acc N' p l Q.
  Proof. intros N N' A p l Q L H n s Ln G. apply H; [lia|exact G]. Qed.

  Lemma acc_conseq : forall N (A : Set) (p : prog A) l (Q Q' : A -> list token -> Prop),
    acc N p l Q -> (forall a l', Q a l' -> Q' a l') -> acc N p l Q'.
  Proof.
    intros N A p l Q Q' H I n s Ln G. specialize (H n s Ln G). unfold post in *.
    destruct (run _ n p s) as [[a s']|q|]; auto. destruct H as (l' & H1 & H2 & H3). eauto.
  Qed.

  Lemma acc_ret : forall N (A : Set) (a : A) l (Q : A -> list token -> Prop), Q a l -> acc N (Ret a) l Q.
  Proof. intros N A a l Q H n s _ G. rewrite run_Ret. exists l. auto using after_refl. Qed.

  Lemma acc_bind : forall N (A B : Set) (p : prog A) (g : A -> prog B) l Q,
    acc N p l (fun a l' => acc N (g a) l' Q) -> acc N (bind p g) l Q.
  Proof.
    intros N A B p g l Q H n s Ln G. rewrite run_bind. specialize (H n s Ln G). unfold post in H.
    destruct (run _ n p s) as [[a s']|q|]; cbn [rbind fst snd]; auto.
    destruct H as (l' & H1 & H2 & H3). specialize (H3 n s' Ln H1). unfold post in *.
    destruct (run _ n (g a) s') as [[b s'']|q|]; auto. destruct H3 as (l'' & H3 & H4 & H5).
    exists l''. eauto using after_trans.
  Qed.

  Lemma good_drop : forall l s, good l s -> good l (mkC (c_toks s) (drop_trivia (c_rest s)) (c_events s) (c_open s) (c_errs s)).
  Proof.
    intros l s (G1 & G2 & p & G3). destruct (drop_split (c_rest s)) as (q & E). repeat split; cbn [c_rest c_toks].
    - now rewrite nontriv_drop.
    - rewrite E in G2. exact (proj1 (lexed_suffix _ _ G2)).
    - rewrite E in G2. exact (proj2 (lexed_suffix _ _ G2)).
    - exists (p ++ q). now rewrite G3, <- app_assoc, <- E.
  Qed.
  Lemma after_drop : forall s, after s (mkC (c_toks s) (drop_trivia (c_rest s)) (c_events s) (c_open s) (c_errs s)).
  Proof. intros s. repeat split. apply drop_split. Qed.

  (** ** Primitives *)

  Lemma acc_look_raw : forall N (B : Set) (f : list token -> B) l (Q : B -> list token -> Prop),
    (forall r, drop_trivia r = r -> nontriv r = l -> lexed r -> Q (f r) l) -> acc N (look f) l Q.
  Proof.
    intros N B f l Q H n s _ G. unfold look. rewrite run_Op. cbn [cstep rbind fst snd]. rewrite run_Ret.
    destruct (good_drop _ _ G) as (G1 & G2 & G3). exists l. split; [apply good_drop; exact G|]. split; [apply after_drop|].
    apply H; [|exact G1|exact G2]. clear. generalize (c_rest s). intros r. induction r as [|t r IH]; [reflexivity|].
    cbn [drop_trivia]. destruct (is_trivia (tk_kind t)) eqn:K; [exact IH|]. cbn [drop_trivia]. now rewrite K.
  Qed.

  (** Look-ahead that sees no white space. *)
  Definition insens {B : Set} (f : list token -> B) : Prop :=
    forall r, drop_trivia r = r -> f r = f (nontriv r).

  Lemma acc_look : forall N (B : Set) (f : list token -> B) l (Q : B -> list token -> Prop),
    insens f -> Q (f l) l -> acc N (look f) l Q.
  Proof. intros N B f l Q I H. apply acc_look_raw. intros r D R _. rewrite I, R by exact D. exact H. Qed.

  Lemma acc_debug_raw : forall N st f l (Q : unit -> list token -> Prop),
    (forall r, drop_trivia r = r -> nontriv r = l -> f r = true) -> Q tt l -> acc N (debug_assert_site st f) l Q.
  Proof.
    intros N st f l Q H HQ n s _ G. unfold debug_assert_site, prim. rewrite run_Op. cbn [cstep]. destruct dbg.
    - assert (F : f (drop_trivia (c_rest s)) = true).
      { destruct (good_drop _ _ G) as (G1 & _). apply H; [|exact G1]. generalize (c_rest s). clear.
        intros r. induction r as [|t r IH]; [reflexivity|].
        cbn [drop_trivia]. destruct (is_trivia (tk_kind t)) eqn:K; [exact IH|]. cbn [drop_trivia]. now rewrite K. }
      rewrite F. cbn [rbind fst snd]. rewrite run_Ret. exists l. split; [apply good_drop; exact G|]. split; [apply after_drop|exact HQ].
    - cbn [rbind fst snd]. rewrite run_Ret. exists l. auto using after_refl.
  Qed.

  Lemma acc_debug : forall N st f l (Q : unit -> list token -> Prop),
    insens f -> f l = true -> Q tt l -> acc N (debug_assert_site st f) l Q.
  Proof. intros N st f l Q I H HQ. apply acc_debug_raw; [|exact HQ]. intros r D R. now rewrite I, R. Qed.

  Lemma acc_bump_gen : forall N st as_ t l (Q : token -> list token -> Prop),
    Q (mkTok (match as_ with Some k => k | None => tk_kind t end) (tk_text t) (tk_start t) (tk_end t)) l ->
    acc N (prim (BumpAs st as_)) (t :: l) Q.
  Proof.
    intros N st as_ t l Q H n s _ G. unfold prim. rewrite run_Op. cbn [cstep].
    destruct (good_drop _ _ G) as (_ & G2 & p & G3). cbn [c_rest c_toks] in G2, G3.
    destruct G as (G1 & _). destruct (drop_head _ _ _ G1) as (r & D & R). rewrite D in *. cbn [rbind fst snd].
    rewrite run_Ret. exists l. split; [|split].
    - repeat split; cbn [c_rest c_toks]; [exact R| | |].
      + exact (proj1 (lexed_suffix [t] _ G2)).
      + exact (proj2 (lexed_suffix [t] _ G2)).
      + exists (p ++ [t]). now rewrite <- app_assoc.
    - repeat split; cbn [c_rest]. destruct (drop_split (c_rest s)) as (q & E). exists (q ++ [t]). rewrite D in E. now rewrite <- app_assoc.
    - exact H.
  Qed.

  Lemma acc_bump_next2 : forall N k t u l (Q : list token -> list token -> Prop),
    tk_end t = tk_start u -> (forall c, Q c l) -> acc N (bump_next_n_as 2 k) (t :: u :: l) Q.
  Proof.
    intros N k t u l Q A H n s _ G. unfold bump_next_n_as, prim. rewrite run_Op. cbn [cstep].
    destruct (good_drop _ _ G) as (_ & G2 & p & G3). cbn [c_rest c_toks] in G2, G3.
    destruct G as (G1 & G4 & _). destruct (drop_head2 _ _ _ _ G4 G1 A) as (r & D & R). rewrite D in *.
    cbn [firstn List.length Nat.eqb skipn rbind fst snd]. rewrite run_Ret. exists l. split; [|split].
    - repeat split; cbn [c_rest c_toks]; [exact R| | |].
      + exact (proj1 (lexed_suffix [t; u] _ G2)).
      + exact (proj2 (lexed_suffix [t; u] _ G2)).
      + exists (p ++ [t; u]). now rewrite <- app_assoc.
    - repeat split; cbn [c_rest]. destruct (drop_split (c_rest s)) as (q & E). exists (q ++ [t; u]). rewrite D in E. now rewrite <- app_assoc.
    - apply H.
  Qed.

  Lemma acc_start : forall N l (Q : nat -> list token -> Prop), (forall m, Q m l) -> acc N start l Q.
  Proof.
    intros N l Q H n s _ G. unfold start, prim. rewrite run_Op. cbn [cstep c_start rbind fst snd]. rewrite run_Ret.
    exists l. split; [exact G|]. split; [|apply H]. repeat split. now exists [].
  Qed.

  Lemma acc_complete : forall N m k l (Q : nat -> list token -> Prop), (forall m, Q m l) -> acc N (complete m k) l Q.
  Proof.
    intros N m k l Q H n s _ G. unfold complete, prim. rewrite run_Op. cbn [cstep]. unfold c_complete.
    destruct (_ && _); [left; reflexivity|].
    destruct (nth_error _ m); [|right; right; left; reflexivity].
    destruct (_ && _); [right; left; reflexivity|]. cbn [rbind fst snd]. rewrite run_Ret.
    exists l. split; [exact G|]. split; [|apply H]. repeat split. now exists [].
  Qed.

  Lemma acc_precede : forall N c l (Q : nat -> list token -> Prop), (forall m, Q m l) -> acc N (precede c) l Q.
  Proof.
    intros N c l Q H n s _ G. unfold precede, prim. rewrite run_Op. cbn [cstep]. unfold c_precede, c_start. cbn [c_toks c_rest c_events c_open c_errs].
    destruct (nth_error _ c) as [[k fp| | | | |]|]; cbn [rbind fst snd];
      try (right; right; right; reflexivity); try (right; right; left; reflexivity). rewrite run_Ret.
    exists l. split; [exact G|]. split; [|apply H]. repeat split. now exists [].
  Qed.

  Lemma acc_trivia : forall N l (Q : unit -> list token -> Prop), Q tt l -> acc N explicitly_consume_trivia l Q.
  Proof.
    intros N l Q H n s _ G. unfold explicitly_consume_trivia, prim. rewrite run_Op. cbn [cstep rbind fst snd]. rewrite run_Ret.
    exists l. split; [exact G|]. split; [|apply H]. repeat split. now exists [].
  Qed.

  Lemma acc_call : forall N c l (Q : option nat -> list token -> Prop),
    (forall N', N' < N -> acc N' (body c) l Q) -> acc N (Call c (fun r => Ret r)) l Q.
  Proof.
    intros N c l Q H n s Ln G. rewrite run_Call. destruct n as [|n]; [exact I|].
    specialize (H n ltac:(lia) n s ltac:(lia) G). unfold post in H.
    destruct (run _ n (body c) s) as [[a s']|q|]; cbn [rbind fst snd]; [|exact H|exact I]. rewrite run_Ret. exact H.
  Qed.

  (** ** Loops *)

  Lemma acc_iter : forall N (X B : Set) (f : X -> prog (X + B)) (I : X -> list token -> Prop) (Q : B -> list token -> Prop),
    (forall x l, I x l -> acc N (f x) l (fun y l' => match y with inl x' => I x' l' | inr b => Q b l' end)) ->
    forall x l, I x l -> acc N (Iter f x (fun b => Ret b)) l Q.
  Proof.
    intros N X B f I Q H x l Hx n. revert x l Hx. induction n as [n IH] using (well_founded_induction lt_wf).
    intros x l Hx s Ln G. rewrite run_Iter. specialize (H x l Hx n s Ln G). unfold post in H.
    destruct (run _ n (f x) s) as [[[x'|b] s']|q|]; cbn [rbind fst snd]; auto.
    - destruct n as [|n]; [exact Logic.I|]. destruct H as (l' & G' & A & Hx').
      specialize (IH n ltac:(lia) x' l' Hx' s' ltac:(lia) G'). unfold post in IH.
      destruct (run _ n (Iter f x' _) s') as [[b s'']|q|]; cbn [rbind fst snd]; auto. rewrite run_Ret.
      destruct IH as (l'' & G'' & A' & HQ). exists l''. eauto using after_trans.
    - rewrite run_Ret. exact H.
  Qed.

  (** grammar.rs:36-57: [I] holds before every round; a round consumes tokens and keeps [I],
      or consumes nothing, keeps [I] and also establishes [Q]. *)
  Lemma acc_many : forall N (X : Set) (early : X -> prog (bool * X)) (child : X -> prog X)
      (I : X -> list token -> Prop) (Q : X -> list token -> Prop),
    (forall x, I x [] -> Q x []) ->
    (forall x t l, I x (t :: l) -> tk_kind t = TK_UNKNOWN -> I x l) ->
    (forall x t l, I x (t :: l) -> tk_kind t <> TK_UNKNOWN ->
      acc N (early x) (t :: l) (fun r l1 => l1 = t :: l /\ if fst r then Q (snd r) l1 else
        acc N (child (snd r)) l1 (fun x2 l2 =>
          List.length l2 < List.length (t :: l) /\ I x2 l2 \/ l2 = t :: l /\ I x2 l2 /\ Q x2 l2))) ->
    forall x l, I x l -> acc N (parse_many_st early child x) l Q.
  Proof.
    intros N X early child I Q Hnil Hunk Hstep x l Hx. unfold parse_many_st.
    apply (acc_iter N X X _ I Q); [|exact Hx]. clear x l Hx. intros x l Hx n s Ln G.
    rewrite run_bind. unfold get_pos at 1, prim at 1. rewrite run_Op. cbn [cstep rbind fst snd]. rewrite run_Ret. cbn [rbind fst snd].
    rewrite run_bind.
    assert (H1 : acc N (at_ TK_UNKNOWN) l (fun b l' => l' = l /\ b = l_at TK_UNKNOWN l)).
    { apply acc_look; [|auto]. intros [|t r] D; [reflexivity|]. cbn [drop_trivia] in D. cbn [nontriv filter].
      destruct (is_trivia (tk_kind t)) eqn:K; [|reflexivity]. exfalso. destruct (drop_split r) as (p & E).
      apply (f_equal (@List.length token)) in D. apply (f_equal (@List.length token)) in E. rewrite app_length in E. cbn in D. lia. }
    specialize (H1 n s Ln G). unfold post in H1. destruct (run _ n (at_ TK_UNKNOWN) s) as [[b s1]|q|]; cbn [rbind fst snd]; auto.
    destruct H1 as (l' & G1 & A1 & -> & ->). destruct (l_at TK_UNKNOWN l) eqn:U.
    - destruct l as [|t l]; [discriminate|]. cbn [l_at] in U. apply kind_eqb_eq in U.
      assert (H2 : acc N (bump ;; Ret (inl x)) (t :: l) (fun (y : X + X) l' => match y with inl x' => I x' l' | inr b => Q b l' end)).
      { apply acc_bind, acc_bump_gen, acc_ret. eauto. }
      specialize (H2 n s1 Ln G1). unfold post in *. destruct (run _ n _ s1) as [[y s2]|q|]; auto.
      destruct H2 as (l2 & G2 & A2 & H2). exists l2. eauto using after_trans.
    - rewrite run_bind.
      assert (H2 : acc N at_end l (fun b l' => l' = l /\ b = l_at_end l)).
      { apply acc_look; [|auto]. intros [|t r] D; [reflexivity|]. cbn [drop_trivia] in D. cbn [nontriv filter].
        destruct (is_trivia (tk_kind t)) eqn:K; [|reflexivity]. exfalso. destruct (drop_split r) as (p & E).
        apply (f_equal (@List.length token)) in D. apply (f_equal (@List.length token)) in E. rewrite app_length in E. cbn in D. lia. }
      specialize (H2 n s1 Ln G1). unfold post in H2. destruct (run _ n at_end s1) as [[b s2]|q|]; cbn [rbind fst snd]; auto.
      destruct H2 as (l' & G2 & A2 & -> & ->). destruct l as [|t l]; cbn [l_at_end].
      { rewrite run_Ret. exists []. split; [exact G2|]. split; [eauto using after_trans|auto]. }
      assert (Hk : tk_kind t <> TK_UNKNOWN) by (intros E; cbn [l_at] in U; rewrite E in U; discriminate U).
      specialize (Hstep x t l Hx Hk n s2 Ln G2). rewrite run_bind. unfold post in Hstep.
      destruct (run _ n (early x) s2) as [[[b x1] s3]|q|]; cbn [rbind fst snd] in *; auto.
      destruct Hstep as (l3 & G3 & A3 & -> & Hc). destruct b.
      { rewrite run_Ret. exists (t :: l). split; [exact G3|]. split; [eauto using after_trans|exact Hc]. }
      rewrite run_bind. specialize (Hc n s3 Ln G3). unfold post in Hc.
      destruct (run _ n (child x1) s3) as [[x2 s4]|q|]; cbn [rbind fst snd] in *; auto.
      destruct Hc as (l4 & G4 & A4 & Hc). rewrite run_bind. unfold get_pos, prim. rewrite run_Op. cbn [cstep rbind fst snd].
      rewrite run_Ret. cbn [rbind fst snd].
      assert (A : after s s4) by eauto using after_trans. destruct (Nat.eqb_spec (List.length (c_toks s4) - List.length (c_rest s4))
        (List.length (c_toks s) - List.length (c_rest s))) as [E|E].
      + rewrite run_Ret. exists l4. split; [exact G4|]. split; [exact A|].
        destruct Hc as [[Hl Hc]|(_ & _ & Hc)]; [|exact Hc]. exfalso.
        destruct A as (At & _ & p & Ar), G as (Gl & _ & q & Gt), G4 as (Gl4 & _).
        rewrite At, Gt, Ar, !app_length in E. destruct p as [|v p]; [|cbn [List.length] in E; lia].
        cbn [app] in Ar. rewrite <- Ar, Gl in Gl4. subst l4. lia.
      + rewrite run_Ret. exists l4. split; [exact G4|]. split; [exact A|]. destruct Hc as [[_ Hc]|(_ & Hc & _)]; exact Hc.
  Qed.

  Lemma acc_many_u : forall N (early : prog bool) (child : prog unit) (I : list token -> Prop) (Q : list token -> Prop),
    (I [] -> Q []) ->
    (forall t l, I (t :: l) -> tk_kind t = TK_UNKNOWN -> I l) ->
    (forall t l, I (t :: l) -> tk_kind t <> TK_UNKNOWN ->
      acc N early (t :: l) (fun b l1 => l1 = t :: l /\ if b then Q l1 else
        acc N child l1 (fun _ l2 => List.length l2 < List.length (t :: l) /\ I l2 \/ l2 = t :: l /\ I l2 /\ Q l2))) ->
    forall l, I l -> acc N (parse_many early child) l (fun _ l' => Q l').
  Proof.
    intros N early child I Q H1 H2 H3 l H. apply (acc_many N unit _ _ (fun _ => I) (fun _ => Q)); [intros _; exact H1|intros _; exact H2| |exact H].
    - intros x t k Hi Hk. apply acc_bind. eapply acc_conseq; [apply H3; assumption|].
      intros b l1 [E Hb]. apply acc_ret. split; [exact E|]. exact Hb.
  Qed.
End Acc.
