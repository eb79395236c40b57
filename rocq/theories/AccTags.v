(** The parser accepts the Twig statements of AccSpec.v. *)
From Coq Require Import NArith String Bool Arith Lia List.
Import ListNotations.
From Verif Require Import Text Kind Regex Lexer LexerProofs ParserApi GrammarExpr GrammarTags GrammarHtml Machine TreeMachine Simulation.
From Verif Require Import AccLogic AccSpec AccRules AccExpr.
Local Notation length := List.length (only parsing).
Local Open Scope list_scope.
Local Open Scope prog_scope.

(** * Contracts of the child parsers *)

Definition pf (f : place) : pfun :=
  match f with InBody => PFAny | InRaw => PFRawInner | InDouble => PFDouble | InSingle => PFSingle | InAttributes => PFAttr end.

Definition ENDKW : list kind := TK_ENDCOMPONENT :: TERMINATION_KEYWORDS.

(** What may follow content at a place. *)
Definition ends (f : place) (r : list token) : Prop :=
  match f with
  | InBody => stops (TK_LESS_THAN_SLASH :: TAG_OPEN) r
  | InRaw => tag_is TERMINATION_KEYWORDS r = true
  | InDouble => heads [TK_DOUBLE_QUOTES] r \/ tag_is TERMINATION_KEYWORDS r = true
  | InSingle => heads [TK_SINGLE_QUOTES] r \/ tag_is TERMINATION_KEYWORDS r = true
  | InAttributes => heads (TK_GREATER_THAN :: TK_SLASH_GREATER_THAN :: TAG_OPEN) r
  end.

Record Children (dbg : bool) (N : nat) : Prop := {
  x_child : forall f t l r, content f (t :: l) -> tk_kind t <> TK_UNKNOWN -> ends f r ->
    acc dbg N (body (CChild (pf f))) (t :: l ++ r)
      (fun o k => (f = InBody -> o <> None) /\ exists l2, content f l2 /\ k = l2 ++ r /\ length l2 <= length l) }.

(** * The first tokens of content *)

Lemma tag_dec : forall S o k l kws v, is TAG_OPEN o -> is S k -> const S (fun x => mem_kind x kws) v = true -> tag_is kws (o :: k :: l) = v.
Proof.
  intros S o k l kws v Ho Hk C. cbn [tag_is]. change TWIG_BLOCK_OPEN_SET with TAG_OPEN. rewrite (is_mem _ _ Ho). cbn [andb]. exact (kdec S k (fun x => mem_kind x kws) v Hk C).
Qed.
Lemma no_tag : forall S kws l, heads S l -> forallb (fun k => negb (mem_kind k TAG_OPEN)) S = true -> tag_is kws l = false.
Proof.
  intros S kws l H C. destruct l as [|t l]; [destruct H|]. cbn [tag_is]. destruct l; [reflexivity|].
  replace (mem_kind (tk_kind t) TWIG_BLOCK_OPEN_SET) with false; [reflexivity|]. symmetry.
  rewrite forallb_forall in C. specialize (C _ H). apply negb_true_iff in C. exact C.
Qed.
Lemma no_tag_not : forall kws t l, ~ is TAG_OPEN t -> tag_is kws (t :: l) = false.
Proof.
  intros kws t l H. cbn [tag_is]. destruct l; [reflexivity|]. apply nmem_is in H. unfold TWIG_BLOCK_OPEN_SET. unfold TAG_OPEN in H. now rewrite H.
Qed.

Definition SIMPLE : list kind :=
  [TK_FLUSH; TK_DO; TK_EXTENDS; TK_DEPRECATED; TK_SW_EXTENDS; TK_IMPORT; TK_SW_IMPORT; TK_FROM; TK_SW_FROM; TK_USE; TK_SW_USE; TK_INCLUDE;
   TK_SW_INCLUDE; TK_PROPS; TK_RETURN; TK_SW_ICON; TK_SW_THUMBNAILS; TK_SET; TK_BLOCK].
Definition PAIRED : list kind :=
  [TK_SANDBOX; TK_VERBATIM; TK_TRANS; TK_AUTOESCAPE; TK_WITH; TK_CACHE; TK_MACRO; TK_APPLY; TK_EMBED; TK_SW_EMBED; TK_SET; TK_BLOCK; TK_COMPONENT;
   TK_SW_SILENT_FEATURE_CALL].
Definition KEYWORDS : list kind := SIMPLE ++ PAIRED ++ [TK_IF; TK_FOR].

Lemma simple_kw : forall k i, simple_tag k i -> forallb (fun x => mem_kind x SIMPLE) k = true.
Proof. intros k i H. destruct H; sub. Qed.
Lemma paired_kw : forall f k i e E, paired_tag f k i e E -> mem_kind k PAIRED = true /\ mem_kind e ENDKW = true /\
  (mem_kind e TERMINATION_KEYWORDS = true \/ f = InBody \/ f = InAttributes).
Proof.
  intros f k i e E H. destruct H as [f k e H|f l _|f|f b x l _ _|f b x t g _ _ _|f n l _ _|f n l fs _ _ _|f k e b x l H _ _|f t _|f n _|f n l H _ _|f l _];
    try (split; [sub|split; [sub|left; sub]]).
  - destruct H as [H|[H|[H|[]]]]; injection H as <- <-; (split; [sub|split; [sub|left; sub]]).
  - destruct H as [H|[H|[]]]; injection H as <- <-; (split; [sub|split; [sub|left; sub]]).
  - split; [sub|split; [sub|right; exact H]].
Qed.
Lemma tag_cons : forall kws i l, tag kws i l -> exists o k l', l = o :: k :: l' /\ is TAG_OPEN o /\ is kws k.
Proof. intros kws i l (o & k & c & -> & Ho & Hk & _). eauto 10. Qed.

Lemma block_heads : forall f l, block f l -> exists o k l', l = o :: k :: l' /\ is TAG_OPEN o /\ is KEYWORDS k.
Proof.
  intros f l H.
  assert (X : forall kws i l r, tag kws i l -> forallb (fun x => mem_kind x KEYWORDS) kws = true ->
    exists o k l', l ++ r = o :: k :: l' /\ is TAG_OPEN o /\ is KEYWORDS k).
  { intros kws i l0 r Ht E. destruct (tag_cons _ _ _ Ht) as (o & k & l' & -> & Ho & Hk). exists o, k, (l' ++ r). split; [reflexivity|].
    split; [exact Ho|]. exact (is_in _ _ _ Hk E). }
  destruct H as [f k i l Hs Ht|f k i e E o b c j Hp Ht _ _ _|f b x o r _ Ht _|f i o b c _ Ht _ _|f i o b e d c _ Ht _ _ _ _].
  - rewrite <- (app_nil_r l). apply (X _ _ _ [] Ht). pose proof (simple_kw _ _ Hs) as S. rewrite forallb_forall in *. intros y Hy.
    specialize (S y Hy). unfold KEYWORDS, mem_kind in *. now rewrite existsb_app, S.
  - apply (X _ _ _ _ Ht). destruct (paired_kw _ _ _ _ _ Hp) as [S _]. cbn [forallb]. rewrite andb_true_r. unfold KEYWORDS, mem_kind in *.
    now rewrite !existsb_app, S, orb_true_r.
  - apply (X _ _ _ _ Ht). sub.
  - apply (X _ _ _ _ Ht). sub.
  - apply (X _ _ _ _ Ht). sub.
Qed.

Lemma var_heads : forall l, var_statement l -> heads VAR_OPEN l.
Proof. intros l (o & b & e & c & -> & Ho & _). exact Ho. Qed.
Lemma comment_heads : forall l, comment_statement l -> heads COMMENT_OPEN l.
Proof. intros l (o & i & c & -> & Ho & _). exact Ho. Qed.
Lemma statement_heads : forall f l, statement f l -> heads (TAG_OPEN ++ COMMENT_OPEN ++ VAR_OPEN) l.
Proof.
  intros f l H. destruct H as [f l H|f l H|f l _ H].
  - destruct (block_heads _ _ H) as (o & k & l' & -> & Ho & _). apply heads_cons. eapply is_in; [exact Ho|sub].
  - eapply heads_in; [exact (comment_heads _ H)|sub].
  - eapply heads_in; [exact (var_heads _ H)|sub].
Qed.
Lemma statement_tag : forall f l r kws, statement f l -> forallb (fun k => negb (mem_kind k kws)) KEYWORDS = true -> tag_is kws (l ++ r) = false.
Proof.
  intros f l r kws H E. destruct H as [f l H|f l H|f l _ H].
  - destruct (block_heads _ _ H) as (o & k & l' & -> & Ho & Hk). cbn [app]. eapply tag_dec; [exact Ho|exact Hk|].
    unfold const. rewrite forallb_forall in *. intros x Hx. specialize (E x Hx). now destruct (mem_kind x kws).
  - eapply no_tag; [apply heads_app; exact (comment_heads _ H)|sub].
  - eapply no_tag; [apply heads_app; exact (var_heads _ H)|sub].
Qed.

Lemma attribute_regex1 : forall t, ok t -> attribute_text (tk_text t) -> tk_kind t <> TK_UNKNOWN -> is NAMES t.
Proof.
  intros t [O _] H U. apply attribute_regex in H. apply not_is. intros [G|G]; [now apply U|]. 
  assert (P : mem_kind (tk_kind t) PUNCT = true) by now apply is_mem. destruct (O P) as (_ & _ & R). congruence.
Qed.
Lemma attribute_heads : forall n r, Forall ok (n ++ r) -> attribute_name n -> heads (TK_COLON :: NAMES) n.
Proof.
  intros n r F H. destruct H as [t U H|c t H _ _].
  - apply heads_cons. eapply is_in; [exact (attribute_regex1 t (Forall_head _ _ _ _ _ F) H U)|sub].
  - apply heads_cons. eapply is_in; [exact H|sub].
Qed.

Definition ATTRS : list kind := TK_COLON :: NAMES ++ TAG_OPEN ++ COMMENT_OPEN ++ VAR_OPEN.
Lemma item_attrs : forall x r, Forall ok (x ++ r) -> item InAttributes x -> heads ATTRS x.
Proof.
  intros x r F H. inversion H as [f t P E1 E2|f l S E1 E2|n v Hn Hv E|n v Hn Hv E| | | | | ]; subst.
  - destruct P.
  - eapply heads_in; [exact (statement_heads _ _ S)|sub].
  - apply heads_app. eapply heads_in; [eapply attribute_heads; [rewrite <- app_assoc in F; exact F|exact Hn]|sub].
  - apply heads_app. eapply heads_in; [exact (var_heads _ Hn)|sub].
Qed.

Lemma content_inv : forall f l, content f l -> l = [] \/ exists x l', l = x ++ l' /\ item f x /\ content f l'.
Proof. intros f l H. destruct H; eauto 10. Qed.

(** An item never starts like an end tag. *)
Lemma item_tag : forall f x r kws, item f x -> forallb (fun k => negb (mem_kind k kws)) KEYWORDS = true -> Forall ok (x ++ r) ->
  tag_is kws (x ++ r) = false.
Proof.
  intros f x r kws H E F.
  destruct H as [f t P|f l S|n v Hn Hv|n v Hn Hv|o n a g b s m c Ho _ _ _ _ _ _ _ _ _ _ _|o n a g b s m c Ho _ _ _ _ _ _ _ _ _ _ _
    |o n a g Ho _ _ _ _|o i c Ho _ _|o d w c Ho _ _ _].
  - cbn [app]. apply no_tag_not. intros G. destruct f; cbn [plain] in P; try apply P; (eapply is_in; [exact G|sub]).
  - eapply statement_tag; eassumption.
  - rewrite <- app_assoc in *. eapply no_tag; [apply heads_app; exact (attribute_heads _ _ F Hn)|sub].
  - rewrite <- app_assoc in *. eapply no_tag; [apply heads_app; exact (var_heads _ Hn)|sub].
  - eapply no_tag; [apply (heads_cons [TK_LESS_THAN]); exact Ho|sub].
  - eapply no_tag; [apply (heads_cons [TK_LESS_THAN]); exact Ho|sub].
  - eapply no_tag; [apply (heads_cons [TK_LESS_THAN]); exact Ho|sub].
  - eapply no_tag; [apply (heads_cons [TK_LESS_THAN_EXCLAMATION_MARK_MINUS_MINUS]); exact Ho|sub].
  - eapply no_tag; [apply (heads_cons [TK_LESS_THAN_EXCLAMATION_MARK]); exact Ho|sub].
Qed.
Lemma item_cons : forall f x r, item f x -> Forall ok (x ++ r) -> exists t l, x = t :: l.
Proof.
  intros f x r H F. destruct H; try (eexists; eexists; reflexivity).
  - pose proof (statement_heads _ _ H) as G. destruct l; [destruct G|eauto].
  - rewrite <- app_assoc in F. pose proof (attribute_heads _ _ F H) as G. destruct n; [destruct G|cbn [app]; eauto].
  - pose proof (var_heads _ H) as G. destruct n; [destruct G|cbn [app]; eauto].
Qed.
Lemma content_tag : forall f t l r kws, content f (t :: l) -> forallb (fun k => negb (mem_kind k kws)) KEYWORDS = true -> Forall ok (t :: l ++ r) ->
  tag_is kws (t :: l ++ r) = false.
Proof.
  intros f t l r kws H E F. destruct (content_inv _ _ H) as [?|(x & l' & Ex & Hx & Hl)]; [discriminate|].
  change (t :: l ++ r) with ((t :: l) ++ r) in *. rewrite Ex in *. rewrite <- app_assoc in *. eapply item_tag; eassumption.
Qed.

(** Unknown characters are skipped. *)
Lemma content_unknown : forall f t l r, content f (t :: l) -> Forall ok (t :: l ++ r) -> tk_kind t = TK_UNKNOWN -> content f l.
Proof.
  intros f t l r H F K. destruct (content_inv _ _ H) as [?|(x & l' & Ex & Hx & Hl)]; [discriminate|].
  assert (F' : Forall ok (x ++ l' ++ r)). { rewrite app_assoc, <- Ex. exact F. }
  assert (X : forall S, heads S x -> mem_kind TK_UNKNOWN S = false -> content f l).
  { intros S G E. destruct x as [|u x]; [destruct G|]. injection Ex as <- _. exfalso. apply is_mem in G. rewrite K in G. congruence. }
  destruct Hx as [f u P|f x S|n v Hn Hv|n v Hn Hv|o n a g b s m c Ho _ _ _ _ _ _ _ _ _ _ _|o n a g b s m c Ho _ _ _ _ _ _ _ _ _ _ _
    |o n a g Ho _ _ _ _|o i c Ho _ _|o d w c Ho _ _ _].
  - injection Ex as _ ->. exact Hl.
  - eapply X; [exact (statement_heads _ _ S)|sub].
  - rewrite <- app_assoc in F'. eapply X; [apply heads_app; exact (attribute_heads _ _ F' Hn)|sub].
  - eapply X; [apply heads_app; exact (var_heads _ Hn)|sub].
  - eapply X; [apply (heads_cons [TK_LESS_THAN]); exact Ho|sub].
  - eapply X; [apply (heads_cons [TK_LESS_THAN]); exact Ho|sub].
  - eapply X; [apply (heads_cons [TK_LESS_THAN]); exact Ho|sub].
  - eapply X; [apply (heads_cons [TK_LESS_THAN_EXCLAMATION_MARK_MINUS_MINUS]); exact Ho|sub].
  - eapply X; [apply (heads_cons [TK_LESS_THAN_EXCLAMATION_MARK]); exact Ho|sub].
Qed.

Ltac tdec :=
  lazymatch goal with
  | |- tag_is ?kws (?o :: ?k :: ?l) = _ =>
    match goal with Ho : is TAG_OPEN o |- _ => match goal with Hk : is ?S k |- _ =>
      let v := eval vm_compute in (forallb (fun x => mem_kind x kws) S) in
      refine (tag_dec S o k l kws v Ho Hk _); vm_compute; reflexivity end end
  end.
Ltac follow := apply estop_false, heads_stops; first
  [ apply heads_app; match goal with H : heads _ ?x |- heads _ ?x => refine (heads_in _ _ _ H _); vm_compute; reflexivity end
  | match goal with |- heads ?S (?t :: ?l) => apply heads_cons; match goal with H : is _ t |- _ => refine (is_in _ _ _ H _); vm_compute; reflexivity end end ].

Section Tags.
  Context (dbg : bool) (N : nat) (IH : forall N', N' < N -> Children dbg N').
  Local Notation acc := (acc dbg N).
  Local Notation XE := (fun N' (_ : N' < N) => exprs_ok dbg N').

  Lemma a_expr : forall b x r (Q : option nat -> list token -> Prop), expr b x -> estop b r -> (forall m, Q (Some m) r) ->
    acc parse_twig_expression (x ++ r) Q.
  Proof. exact (call_expr dbg N XE). Qed.
  Lemma a_expr_or : forall msg set b x r (Q : unit -> list token -> Prop), expr b x -> estop b r -> Q tt r ->
    acc (expression_or msg set) (x ++ r) Q.
  Proof. intros msg set b x r Q Hx Hr HQ. unfold expression_or. apply acc_bind. eapply a_expr; [exact Hx|exact Hr|]. intros m. tidy. esteps. exact HQ. Qed.
  Lemma a_name_or : forall msg set t w (Q : unit -> list token -> Prop), named t -> Q tt w -> acc (name_or msg set) (t :: w) Q.
  Proof. intros msg set t w Q H HQ. unfold name_or. apply acc_bind, acc_name; [left; now apply named_regex|]. intros m. tidy. esteps. exact HQ. Qed.
  Lemma a_string_or : forall msg set l w (Q : unit -> list token -> Prop), str false l -> Q tt w -> acc (string_or msg set) (l ++ w) Q.
  Proof.
    intros msg set l w Q H HQ. unfold string_or. pose proof (str_heads _ _ H) as K. esteps.
    apply (acc_string dbg N XE); [exact H|]. intros m. esteps. exact HQ.
  Qed.
  Lemma a_args : forall closing l c w (Q : unit -> list token -> Prop), const EXPRS (fun k => mem_kind k closing) false = true ->
    mem_kind TK_CLOSE_PARENTHESIS closing = true ->
    args l -> is [TK_CLOSE_PARENTHESIS] c -> Q tt (c :: w) -> acc (parse_arguments closing) (l ++ c :: w) Q.
  Proof. intros closing l c w Q E1 E2 Hl Hc HQ. apply (acc_args dbg N XE); auto. intros []. exact HQ. Qed.

  (** The body of a tag. *)
  Lemma a_body : forall f early kws b e (Q : unit -> list token -> Prop), (forall l (Q : bool -> list token -> Prop), Q (tag_is kws l) l -> acc early l Q) ->
    forallb (fun k => negb (mem_kind k kws)) KEYWORDS = true -> content f b -> tag_is kws e = true -> ends f e -> Q tt e ->
    acc (parse_body early (pf f)) (b ++ e) Q.
  Proof.
    intros f early kws b e Q He Hk Hb Ht Hf HQ. unfold parse_body. esteps. apply acc_ok. fold ok. intros F. eapply acc_conseq.
    - apply (acc_many_u dbg N _ _ (fun k => exists l, content f l /\ k = l ++ e /\ Forall ok k) (fun k => k = e)); [..|eauto].
      + intros (l & Hl & E & _). apply eq_sym in E. apply app_eq_nil in E as [_ ->]. reflexivity.
      + intros t k (l & Hl & E & G) K. destruct l as [|u l].
        * exfalso. cbn [app] in E. rewrite <- E in Ht. cbn [tag_is] in Ht. destruct k; [discriminate Ht|]. rewrite K in Ht. apply andb_true_iff in Ht as [Ht _].
          vm_compute in Ht. discriminate Ht.
        * injection E as <- ->. exists l. split; [eapply content_unknown; eassumption|]. split; [reflexivity|]. now inversion G.
      + intros t k (l & Hl & E & G) K. apply He. split; [reflexivity|]. rewrite E in G |- *. destruct l as [|u l]; cbn [app] in *.
        * rewrite Ht. reflexivity.
        * rewrite (content_tag _ _ _ _ _ Hl Hk G). unfold call_child. injection E as -> _.
          change (Call (CChild (pf f)) (fun _ : option nat => Ret tt)) with (bind (Call (CChild (pf f)) (fun r => Ret r)) (fun _ => Ret tt)).
          apply acc_bind, acc_call. intros N' L. eapply acc_conseq; [exact (x_child _ _ (IH N' L) f u l e Hl K Hf)|].
          intros o k' (_ & l2 & Hl2 & -> & Hlen). apply acc_ok. fold ok. intros F2. apply acc_ret. left. split; [cbn [length]; rewrite !app_length; lia|].
          exists l2. auto.
    - intros _ k ->. esteps. exact HQ.
  Qed.

  Lemma tag_ends : forall f o k l, is TAG_OPEN o -> is TERMINATION_KEYWORDS k -> ends f (o :: k :: l).
  Proof.
    intros f o k l Ho Hk.
    assert (T : tag_is TERMINATION_KEYWORDS (o :: k :: l) = true) by (eapply tag_dec; [exact Ho|exact Hk|sub]).
    destruct f; cbn [ends]; try (right; exact T); try exact T.
    - right. apply heads_cons. eapply is_in; [exact Ho|sub].
    - apply heads_cons. eapply is_in; [exact Ho|sub].
  Qed.

  (** Body and end tag. *)
  Lemma a_body1 : forall f kw b o k l (Q : unit -> list token -> Prop), content f b -> is TAG_OPEN o -> is [kw] k ->
    mem_kind kw TERMINATION_KEYWORDS = true \/ (f = InBody \/ f = InAttributes) /\ kw = TK_ENDCOMPONENT ->
    Q tt (o :: k :: l) -> acc (parse_body (at_twig_tag kw) (pf f)) (b ++ o :: k :: l) Q.
  Proof.
    intros f kw b o k l Q Hb Ho Hk Hkw HQ. apply (a_body f _ [kw]); [| |exact Hb| | |exact HQ].
    - intros l' Q' HQ'. eapply acc_at_twig_tag; [reflexivity|exact HQ'].
    - destruct Hkw as [Hkw|[_ ->]]; [|sub].
      assert (X : forallb (fun kw => forallb (fun k => negb (mem_kind k [kw])) KEYWORDS) TERMINATION_KEYWORDS = true) by sub.
      rewrite forallb_forall in X. apply X. unfold mem_kind in Hkw. apply existsb_exists in Hkw as (x & Hx & E). apply kind_eqb_eq in E. now subst.
    - eapply tag_dec; [exact Ho|exact Hk|]. cbn [const forallb mem_kind existsb]. rewrite kind_eqb_refl. reflexivity.
    - destruct Hkw as [Hkw|[Hf _]].
      + apply tag_ends; [exact Ho|]. apply is1 in Hk. apply mem_is. now rewrite Hk.
      + destruct Hf as [->| ->]; cbn [ends].
        * right. apply heads_cons. eapply is_in; [exact Ho|sub].
        * apply heads_cons. eapply is_in; [exact Ho|sub].
  Qed.
  Lemma a_ending : forall kw r1 r2 r3 node o k c w (Q : unit -> list token -> Prop), is TAG_OPEN o -> is [kw] k -> is TAG_CLOSE c -> Q tt w ->
    acc (parse_ending kw r1 r2 r3 node) (o :: k :: c :: w) Q.
  Proof.
    intros kw r1 r2 r3 node o k c w Q Ho Hk Hc HQ. unfold parse_ending. esteps.
    eapply acc_expect; [apply is1 in Hk; rewrite Hk; apply kind_eqb_refl|]. esteps. exact HQ.
  Qed.

  Lemma is_two : forall a b t, is [a; b] t -> is [a] t \/ is [b] t.
  Proof. intros a b t [H|H]; [left; left; exact H|right; exact H]. Qed.

  Ltac tstep :=
    lazymatch goal with
    | |- AccLogic.acc _ _ (expression_or _ _) _ _ => eapply a_expr_or; [eassumption|follow|]
    | |- AccLogic.acc _ _ parse_twig_expression _ _ => eapply a_expr; [eassumption|follow|]; let m := fresh "m" in intros m; tidy
    | |- AccLogic.acc _ _ (name_or _ _) _ _ => eapply a_name_or; [eassumption|]
    | |- AccLogic.acc _ _ (string_or _ _) _ _ => eapply a_string_or; [eassumption|]
    | |- AccLogic.acc _ _ (parse_body (at_twig_tag _) _) _ _ => eapply a_body1; [eassumption|eassumption|eassumption|left; sub|]
    | |- AccLogic.acc _ _ (parse_ending _ _ _ _ _) _ _ => eapply a_ending; [eassumption|eassumption|eassumption|]
    | |- AccLogic.acc _ _ (parse_include_with _) _ _ => unfold parse_include_with
    | |- AccLogic.acc _ _ parse_twig_name _ _ => apply acc_name; [left; apply named_regex; assumption|]; let m := fresh "m" in intros m; tidy
    | |- AccLogic.acc _ _ (parse_arguments _) _ _ => apply a_args; [sub|sub|eassumption|eassumption|]
    | _ => estep
    end.
  Ltac tsteps := repeat tstep.

  (** ** Loops over names *)

  Lemma override_heads : forall x r, Forall ok (x ++ r) -> override x -> heads NAMES x.
  Proof.
    intros x r F [(n & -> & H)|(n & a & m & -> & H & _)]; apply heads_cons, named_names; auto; exact (Forall_head _ _ _ _ _ F).
  Qed.
  Lemma a_override : forall desc x r (Q : nat -> list token -> Prop), override x -> heads (TK_COMMA :: TAG_CLOSE) r -> (forall m, Q m r) ->
    acc (parse_name_as_name_override desc) (x ++ r) Q.
  Proof.
    intros desc x r Q Hx Hr HQ. unfold parse_name_as_name_override.
    destruct Hx as [(n & -> & Hn)|(n & a & m & -> & Hn & Ha & Hm)]; cbn [app]; tsteps; apply HQ.
  Qed.
  Lemma overrides_inv : forall l, overrides l -> override l \/ (exists x c, l = x ++ [c] /\ override x /\ is [TK_COMMA] c) \/
    exists x c l', l = x ++ c :: l' /\ override x /\ is [TK_COMMA] c /\ overrides l'.
  Proof. intros l H. destruct H; eauto 10. Qed.

  Lemma a_overrides : forall desc l c w (Q : nat -> list token -> Prop), overrides l -> is TAG_CLOSE c -> (forall n, 1 <= n -> Q n (c :: w)) ->
    acc (parse_overrides desc) (l ++ c :: w) Q.
  Proof.
    intros desc l c w Q Hl Hc HQ. unfold parse_overrides. apply acc_ok. fold ok. intros F. eapply acc_conseq.
    - apply (acc_many dbg N _ _ _ (fun n k => (k = c :: w /\ 1 <= n \/ exists l, overrides l /\ k = l ++ c :: w) /\ Forall ok k) (fun n k => k = c :: w /\ 1 <= n)).
      + intros n ([[? _]|(l' & _ & E)] & _); [discriminate|]. destruct l'; discriminate.
      + intros n t k ([[E _]|(l' & Hl' & E)] & F') K; exfalso.
        * injection E as -> _. refine (disj _ _ _ (kind_is1 _ _ K) Hc _). sub.
        * rewrite E in F'. assert (X : heads NAMES (l' ++ c :: w)).
          { destruct (overrides_inv _ Hl') as [H|[(x & d & -> & H & _)|(x & d & l'' & -> & H & _ & _)]].
            - apply heads_app. eapply override_heads; eassumption.
            - rewrite <- app_assoc in *. apply heads_app. eapply override_heads; eassumption.
            - rewrite <- app_assoc in *. apply heads_app. eapply override_heads; eassumption. }
          rewrite <- E in X. refine (disj _ _ _ (kind_is1 _ _ K) (heads_is _ _ _ X) _). sub.
      + intros n t k ([[E Hn]|(l' & Hl' & E)] & F') K.
        * rewrite E. tsteps. split; [reflexivity|]. cbn [fst snd]. auto.
        * rewrite E in F' |- *. clear E K.
          assert (X : forall x r, override x -> Forall ok (x ++ r) -> heads NAMES x).
          { intros x r Hx Hf. eapply override_heads; eassumption. }
          destruct (overrides_inv _ Hl') as [H|[(x & d & -> & H & Hd)|(x & d & l'' & -> & H & Hd & Hl'')]].
          -- pose proof (X _ _ H F') as Hh. tsteps. split; [reflexivity|]. cbn [fst snd]. apply acc_bind, a_override; [exact H|apply heads_cons; eapply is_in; [exact Hc|sub]|].
             intros m. tsteps. left. split.
             ++ pose proof (override_heads _ _ F' H) as Z. destruct l'; [destruct Z|]. rewrite app_length. cbn [length]. lia.
             ++ split; [left; split; [reflexivity|lia]|]. now apply Forall_app in F'.
          -- rewrite <- app_assoc in F' |- *. pose proof (X _ _ H F') as Hh. cbn [app] in *. tsteps. split; [reflexivity|]. cbn [fst snd].
             apply acc_bind, a_override; [exact H|apply heads_cons; eapply is_in; [exact Hd|sub]|].
             intros m. tsteps. left. split.
             ++ rewrite app_length. cbn [length]. lia.
             ++ split; [left; split; [reflexivity|lia]|]. apply Forall_app in F' as [_ F']. now inversion F'.
          -- rewrite <- app_assoc in F' |- *. pose proof (X _ _ H F') as Hh. cbn [app] in *. tsteps. split; [reflexivity|]. cbn [fst snd].
             apply acc_bind, a_override; [exact H|apply heads_cons; eapply is_in; [exact Hd|sub]|].
             intros m. tsteps. left. split.
             ++ repeat (rewrite ?app_length; cbn [length]). lia.
             ++ split; [right; eauto|]. apply Forall_app in F' as [_ F']. now inversion F'.
      + split; [right; eauto|exact F].
    - intros n k [-> Hn]. now apply HQ.
  Qed.

  (** ** Comma separated lists with a counter *)

  Inductive seps (it : list token -> Prop) : nat -> list token -> Prop :=
  | seps_nil : seps it 0 []
  | seps_one x : it x -> seps it 1 x
  | seps_cons n x d l : it x -> is [TK_COMMA] d -> seps it n l -> seps it (S n) (x ++ d :: l).

  Lemma a_seps : forall (X : Set) (early : X -> prog (bool * X)) (child : X -> prog X) (J : X -> nat -> Prop) (it : list token -> Prop) HDS c w,
    (forall x r, Forall ok (x ++ r) -> it x -> heads HDS x) ->
    mem_kind TK_UNKNOWN HDS = false -> tk_kind c <> TK_UNKNOWN ->
    (forall y l (Q : bool * X -> list token -> Prop), heads HDS l -> Q (false, y) l -> acc (early y) l Q) ->
    (forall y (Q : bool * X -> list token -> Prop), Q (true, y) (c :: w) -> acc (early y) (c :: w) Q) ->
    (forall y n x (Q : X -> list token -> Prop), J y (S n) -> it x -> (forall y', J y' n -> Q y' (c :: w)) -> acc (child y) (x ++ c :: w) Q) ->
    (forall y n x d l (Q : X -> list token -> Prop), J y (S n) -> it x -> is [TK_COMMA] d -> (forall y', J y' n -> Q y' l) -> acc (child y) (x ++ d :: l) Q) ->
    forall n l y (Q : X -> list token -> Prop), seps it n l -> J y n -> (forall y', J y' 0 -> Q y' (c :: w)) ->
      acc (parse_many_st early child y) (l ++ c :: w) Q.
  Proof.
    intros X early child J it HDS c w Hh Hu Hc E1 E2 C1 C2 n l y Q Hl Hy HQ. apply acc_ok. fold ok. intros F. eapply acc_conseq.
    - apply (acc_many dbg N _ _ _ (fun y k => exists n l, J y n /\ seps it n l /\ k = l ++ c :: w /\ Forall ok k) (fun y k => k = c :: w /\ J y 0)).
      + intros y' (n' & l' & _ & _ & E & _). destruct l'; discriminate.
      + intros y' t k (n' & l' & _ & Hl' & E & F') K. exfalso.
        assert (Z : forall x r, it x -> t :: k = x ++ r -> False).
        { intros x r Hx Ex. rewrite Ex in F'. apply (Hh _ _ F') in Hx. destruct x as [|t' x]; [destruct Hx|]. injection Ex as <- _.
          cbn [heads] in Hx. apply is_mem in Hx. rewrite K in Hx. congruence. }
        destruct Hl' as [|x Hx|n' x d l' Hx _ _].
        * injection E as -> _. now apply Hc.
        * exact (Z _ _ Hx E).
        * rewrite <- app_assoc in E. exact (Z _ _ Hx E).
      + intros y' t k (n' & l' & Hy' & Hl' & E & F') K. rewrite E in F' |- *. clear E K. destruct Hl' as [|x Hx|n' x d l' Hx Hd Hl'].
        * cbn [app]. apply E2. cbn [fst snd]. auto.
        * apply E1; [apply heads_app; eauto|]. split; [reflexivity|]. cbn [fst snd]. eapply C1; [exact Hy'|exact Hx|].
          intros y2 Hy2. left. split.
          -- pose proof (Hh _ _ F' Hx) as G. destruct x; [destruct G|]. rewrite app_length. cbn [length]. lia.
          -- exists 0, []. apply Forall_app in F' as [_ F']. split; [exact Hy2|]. split; [constructor|]. auto.
        * rewrite <- app_assoc in F' |- *. cbn [app] in *. apply E1; [apply heads_app; eauto|]. split; [reflexivity|]. cbn [fst snd].
          eapply C2; [exact Hy'|exact Hx|exact Hd|]. intros y2 Hy2. left. split.
          -- repeat (rewrite ?app_length; cbn [length]). lia.
          -- exists n', l'. apply Forall_app in F' as [_ F']. inversion F'. auto.
      + exists n, l. auto.
    - intros y' k [-> H]. now apply HQ.
  Qed.

  Definition one_name (l : list token) : Prop := exists t, l = [t] /\ named t.
  Definition an_expr (l : list token) : Prop := exists b, expr b l.
  Lemma name_list_seps : forall n l, name_list n l -> seps one_name n l.
  Proof.
    intros n l H. induction H as [t H|n t c l H Hc _ IHl].
    - apply seps_one. exists t. auto.
    - apply (seps_cons _ n [t] c l); [exists t; auto|exact Hc|exact IHl].
  Qed.
  Lemma expr_list_seps : forall n l, expr_list n l -> seps an_expr n l.
  Proof.
    intros n l H. induction H as [b x H|n b x c l H Hc _ IHl].
    - apply seps_one. exists b. auto.
    - apply seps_cons; [exists b; auto|exact Hc|exact IHl].
  Qed.
  Lemma props_seps : forall l, props l -> exists n, seps prop_declaration n l.
  Proof.
    intros l H. induction H as [|x H|x c l H Hc _ [n IHl]].
    - exists 0. constructor.
    - exists 1. now constructor.
    - exists (S n). now constructor.
  Qed.
  Lemma one_name_heads : forall x r, Forall ok (x ++ r) -> one_name x -> heads NAMES x.
  Proof. intros x r F (t & -> & H). apply heads_cons, named_names; [exact (Forall_head _ _ _ _ _ F)|exact H]. Qed.
  Lemma an_expr_heads : forall x r, Forall ok (x ++ r) -> an_expr x -> heads EXPRS x.
  Proof. intros x r F [b H]. eapply expr_heads; eassumption. Qed.
  Lemma prop_heads : forall x r, Forall ok (x ++ r) -> prop_declaration x -> heads NAMES x.
  Proof.
    intros x r F H. destruct H as [t H|t q b x H _ _]; apply heads_cons, named_names; auto; exact (Forall_head _ _ _ _ _ F).
  Qed.

  Lemma a_names : forall n l c w (Q : nat -> list token -> Prop), name_list n l -> is (TK_EQUAL :: TAG_CLOSE) c -> Q n (c :: w) ->
    acc (parse_many_st (fun n => b <- at_set ([TK_EQUAL] ++ close3) ;; Ret (b, n))
      (fun n =>
         on <- parse_twig_name ;;
         when (is_none on) (add_error "twig variable name") ;;
         (If at_ TK_COMMA Then bump ;; Ret tt
          Else If at_set ([TK_EQUAL] ++ close3) Then Ret tt Else add_error ",") ;;
         Ret (if is_none on then n else S n)) 0) (l ++ c :: w) Q.
  Proof.
    intros n l c w Q Hl Hc HQ. apply (a_seps _ _ _ (fun y k => y + k = n) one_name NAMES c w) with (n := n).
    - exact one_name_heads.
    - sub.
    - intros K. refine (disj _ _ _ (kind_is1 _ _ K) Hc _). sub.
    - intros y k Q' Hk HQ'. tsteps. exact HQ'.
    - intros y Q' HQ'. tsteps. exact HQ'.
    - intros y k x Q' Hy (t & -> & Ht) HQ'. cbn [app]. tsteps. apply HQ'. lia.
    - intros y k x d l' Q' Hy (t & -> & Ht) Hd HQ'. cbn [app]. tsteps. apply HQ'. lia.
    - now apply name_list_seps.
    - lia.
    - intros y' E. replace y' with n by lia. exact HQ.
  Qed.

  Lemma a_expr_list : forall n l c w (Q : nat -> list token -> Prop), expr_list n l -> is TAG_CLOSE c -> Q n (c :: w) ->
    acc (parse_many_st (fun n => b <- at_twig_block_close ;; Ret (b, n))
           (fun n =>
              oe <- parse_twig_expression ;;
              when (is_none oe) (add_error "twig expression") ;;
              (If at_ TK_COMMA Then bump ;; Ret tt
               Else If at_twig_block_close Then Ret tt Else add_error ",") ;;
              Ret (if is_none oe then n else S n)) 0) (l ++ c :: w) Q.
  Proof.
    intros n l c w Q Hl Hc HQ. apply (a_seps _ _ _ (fun y k => y + k = n) an_expr EXPRS c w) with (n := n).
    - exact an_expr_heads.
    - sub.
    - intros K. refine (disj _ _ _ (kind_is1 _ _ K) Hc _). sub.
    - intros y k Q' Hk HQ'. tsteps. exact HQ'.
    - intros y Q' HQ'. tsteps. exact HQ'.
    - intros y k x Q' Hy (b & Hx) HQ'. apply acc_bind. eapply a_expr; [exact Hx|destruct b; follow|]. intros m. tidy. tsteps. apply HQ'. lia.
    - intros y k x d l' Q' Hy (b & Hx) Hd HQ'. apply acc_bind. eapply a_expr; [exact Hx|destruct b; follow|]. intros m. tidy. tsteps. apply HQ'. lia.
    - now apply expr_list_seps.
    - lia.
    - intros y' E. replace y' with n by lia. exact HQ.
  Qed.

  Lemma a_props : forall l c w m, props l -> is TAG_CLOSE c -> forall k (Q : nat -> list token -> Prop), is [TK_PROPS] k -> (forall m, Q m w) ->
    acc (parse_twig_props m) (k :: l ++ c :: w) Q.
  Proof.
    intros l c w m Hl Hc k Q Hk HQ. unfold parse_twig_props. tsteps. destruct (props_seps _ Hl) as [n Hn]. unfold parse_many.
    apply (a_seps _ _ _ (fun _ _ => True) prop_declaration NAMES c w) with (n := n).
    - exact prop_heads.
    - sub.
    - intros K. refine (disj _ _ _ (kind_is1 _ _ K) Hc _). sub.
    - intros y l' Q' Hk' HQ'. tsteps. exact HQ'.
    - intros y Q' HQ'. tsteps. exact HQ'.
    - intros y n' x Q' _ Hx HQ'. destruct Hx as [t Ht|t q b x Ht Hq Hx]; cbn [app]; tsteps; apply HQ'; exact I.
    - intros y n' x d l' Q' _ Hx Hd HQ'. destruct Hx as [t Ht|t q b x Ht Hq Hx]; cbn [app]; tsteps; apply HQ'; exact I.
    - exact Hn.
    - exact I.
    - intros y' _. tsteps. apply HQ.
  Qed.

  (** ** Tags that stand alone *)

  Ltac enter := unfold parse_twig_block_statement, parse_shopware_twig_block_statement; tsteps.
  Ltac cases2 H := destruct (is_two _ _ _ H) as [?Hk|?Hk]; clear H.

  Lemma a_simple : forall f k i l r (Q : option nat -> list token -> Prop), simple_tag k i -> tag k i l -> (forall m, Q (Some m) r) ->
    acc (parse_twig_block_statement (pf f)) (l ++ r) Q.
  Proof.
    intros f k i l r Q Hs Ht HQ. destruct Ht as (o & kw & c & -> & Ho & Hkw & Hc). cbn [app].
    destruct Hs as [|b x Hx|s Hs|b x a n Hx Ha Hn|b x j l Hx Hj Hl|s Hs|s v l Hs Hv Hl|b x l Hx Hl|l Hl| |b x Hx|b x l Hx Hl|b x l Hx Hl|n v q x Hv Hq Hx|n b x Hn Hx];
      tidy.
    - enter. unfold parse_twig_flush. tsteps. apply HQ.
    - cases2 Hkw; enter; unfold parse_twig_do, parse_twig_extends; tsteps; apply HQ.
    - cases2 Hkw; enter; unfold parse_twig_deprecated, parse_twig_sw_extends; tsteps; apply HQ.
    - enter. unfold parse_twig_import. tsteps. apply HQ.
    - enter. unfold parse_twig_from. tsteps. apply a_overrides; [exact Hl|exact Hc|]. intros m' Hm.
      replace (m' <? 1) with false by (symmetry; apply Nat.ltb_ge; exact Hm). tsteps. apply HQ.
    - enter. unfold parse_twig_use. tsteps. apply HQ.
    - enter. unfold parse_twig_use. tsteps. apply a_overrides; [exact Hl|exact Hc|]. intros m' Hm.
      replace (m' <? 1) with false by (symmetry; apply Nat.ltb_ge; exact Hm). tsteps. apply HQ.
    - destruct Hl as (i0 & w & on & -> & Hi & Hw & Hon).
      cases2 Hkw; enter; unfold parse_twig_include, parse_twig_sw_include;
        (destruct Hi as [->|(ti & -> & Hi)]; destruct Hw as [->|(tw & bw & xw & -> & Hw & Hxw)]; destruct Hon as [->|(ton & -> & Hon)]; tidy; tsteps; apply HQ).
    - enter. apply a_props; [exact Hl|exact Hc|exact Hkw|]. intros m'. tsteps. apply HQ.
    - enter. unfold parse_twig_sw_return. tsteps. apply (call_none dbg N XE); [eapply is_in; [exact Hc|sub]|]. tsteps. apply HQ.
    - enter. unfold parse_twig_sw_return. tsteps. apply HQ.
    - destruct Hl as [->|(tw & bw & xw & -> & Hw & Hxw)]; tidy; enter; unfold parse_twig_sw_icon; tsteps; apply HQ.
    - destruct Hl as [->|(tw & bw & xw & -> & Hw & Hxw)]; tidy; enter; unfold parse_twig_sw_thumbnails; tsteps; apply HQ.
    - enter. unfold parse_twig_set, parse_set_assignment. tsteps. apply (a_names n); [exact Hv|eapply is_in; [exact Hq|sub]|].
      assert (Hn : n =? 0 = false) by (destruct Hv; reflexivity). rewrite Hn. tsteps.
      apply (a_expr_list n); [exact Hx|exact Hc|]. rewrite Nat.eqb_refl. tidy. tsteps. apply HQ.
    - enter. unfold parse_twig_block. apply acc_ok. fold ok. intros F.
      assert (Hh : heads EXPRS x). { inversion F as [|? ? _ F1]; subst. inversion F1 as [|? ? _ F2]; subst. eapply expr_heads; eassumption. }
      tsteps. apply HQ.
  Qed.

  (** ** Tags with an end tag *)

  Lemma tag_is_or : forall a b l, tag_is (a :: b) l = tag_is [a] l || tag_is b l.
  Proof.
    intros a b [|t [|u l]]; try reflexivity. cbn [tag_is mem_kind existsb]. rewrite orb_false_r. destruct (mem_kind (tk_kind t) TWIG_BLOCK_OPEN_SET); reflexivity.
  Qed.
  Lemma early2 : forall a b l (Q : bool -> list token -> Prop), Q (tag_is [a; b] l) l ->
    acc (x <- at_twig_tag a ;; if x : bool then Ret true else at_twig_tag b) l Q.
  Proof.
    intros a b l Q HQ. rewrite tag_is_or in HQ. apply acc_bind. eapply acc_at_twig_tag; [reflexivity|]. destruct (tag_is [a] l); cbn [orb] in HQ.
    - apply acc_ret. exact HQ.
    - eapply acc_at_twig_tag; [reflexivity|exact HQ].
  Qed.
  Lemma early3 : forall a b c l (Q : bool -> list token -> Prop), Q (tag_is [a; b; c] l) l ->
    acc (x <- at_twig_tag a ;; if x : bool then Ret true else y <- at_twig_tag b ;; if y : bool then Ret true else at_twig_tag c) l Q.
  Proof.
    intros a b c l Q HQ. rewrite tag_is_or in HQ. apply acc_bind. eapply acc_at_twig_tag; [reflexivity|]. destruct (tag_is [a] l); cbn [orb] in HQ.
    - apply acc_ret. exact HQ.
    - now apply early2.
  Qed.

  Lemma a_end_name : forall what t c w j (Q : unit -> list token -> Prop),
    optional (fun l => exists m, l = [m] /\ is [TK_WORD] m /\ tk_text m = tk_text t) j -> is TAG_CLOSE c -> Q tt (c :: w) ->
    acc (parse_end_name what (Some (tk_text t))) (j ++ c :: w) Q.
  Proof.
    intros what t c w j Q Hj Hc HQ. unfold parse_end_name. destruct Hj as [->|(m & -> & Hm & E)]; cbn [app].
    - tsteps. exact HQ.
    - tsteps. cbn [tk_text]. rewrite E. replace (text_eqb (tk_text t) (tk_text t)) with true by (symmetry; now apply text_eqb_eq). tsteps. exact HQ.
  Qed.

  (** The filters of an apply tag. *)
  Lemma a_filters : forall fs c w m (Q : nat -> list token -> Prop), filters fs -> is TAG_CLOSE c -> (forall m, Q m (c :: w)) ->
    acc (parse_many_st (fun node => b <- at_twig_block_close ;; Ret (b, node))
      (fun node => If at_ TK_SINGLE_PIPE Then parse_twig_filter node Else Ret node) m) (fs ++ c :: w) Q.
  Proof.
    intros fs c w m Q Hfs Hc HQ.
    assert (Hinv : forall l, filters l -> l = [] \/ exists x l', l = x ++ l' /\ filter_call x /\ filters l') by (intros l H; destruct H; eauto 10).
    eapply acc_conseq.
    - apply (acc_many dbg N _ _ _ (fun _ k => exists l, filters l /\ k = l ++ c :: w) (fun _ k => k = c :: w)); [..|eauto].
      + intros _ (l & _ & E). destruct l; discriminate.
      + intros _ t k (l & Hl & E) K. exfalso. destruct (Hinv _ Hl) as [->|(x & l' & -> & Hx & _)].
        * injection E as -> _. refine (disj _ _ _ (kind_is1 _ _ K) Hc _). sub.
        * apply filter_heads in Hx. destruct x as [|u x]; [destruct Hx|]. injection E as -> _. apply is1 in Hx. congruence.
      + intros y t k (l & Hl & E) K. rewrite E. clear E K. destruct (Hinv _ Hl) as [->|(x & l' & -> & Hx & Hl')].
        * cbn [app]. tsteps. cbn [fst snd]. auto.
        * rewrite <- app_assoc. pose proof (filter_heads _ Hx) as Hh. tsteps. cbn [fst snd]. split; [reflexivity|]. tsteps.
          apply (acc_filter dbg N XE); [exact Hx| |].
          -- destruct (Hinv _ Hl') as [->|(x' & l'' & -> & Hx' & _)].
             ++ right. apply heads_cons. eapply is_in; [exact Hc|sub].
             ++ right. apply heads_app, heads_app. eapply heads_in; [exact (filter_heads _ Hx')|sub].
          -- intros m'. left. split; [|eauto]. destruct x; [destruct Hh|]. repeat (rewrite ?app_length; cbn [length]). lia.
    - intros m' k ->. apply HQ.
  Qed.

  Lemma a_hash : forall l w (Q : nat -> list token -> Prop), hash l -> (forall m, Q m w) -> acc parse_twig_hash (l ++ w) Q.
  Proof. exact (acc_hash dbg N XE). Qed.

  Lemma a_paired : forall f k i e E o b c j r (Q : option nat -> list token -> Prop), paired_tag f k i e E -> tag [k] i o -> content f b -> E j -> tag [e] j c ->
    (forall m, Q (Some m) r) -> acc (parse_twig_block_statement (pf f)) (o ++ b ++ c ++ r) Q.
  Proof.
    intros f k i e E o b c j r Q Hp Ho Hb Hj Hc HQ. destruct Ho as (o1 & k1 & c1 & -> & Ho1 & Hk1 & Hc1). destruct Hc as (o2 & k2 & c2 & -> & Ho2 & Hk2 & Hc2).
    cbn [app]. destruct Hp as [f k e H|f l Hl|f|f bx x l Hx Hl|f bx x t g Hx Ht Hg|f n l Hn Hl|f n l fs Hn Hl Hfs|f k e bx x l H Hx Hl|f t Ht|f n Hn|f n l Hf Hn Hl|f l Hl];
      try (subst j); tidy.
    - destruct H as [H|[H|[H|[]]]]; injection H as <- <-; enter; unfold parse_twig_sandbox, parse_twig_verbatim, parse_twig_trans; tsteps; apply HQ.
    - enter. unfold parse_twig_autoescape. destruct Hl as [->|[Hl|(t & -> & Hl)]]; tidy.
      + tsteps. apply HQ.
      + pose proof (str_heads _ _ Hl) as Hh. tsteps. apply (acc_string dbg N XE); [exact Hl|]. intros m'. tsteps. apply HQ.
      + tsteps. apply HQ.
    - enter. unfold parse_twig_with. tsteps. apply (call_none dbg N XE); [eapply is_in; [exact Hc1|sub]|]. tsteps. apply HQ.
    - enter. unfold parse_twig_with. destruct Hl as [->|(t & -> & Hl)]; tidy; tsteps; apply HQ.
    - enter. unfold parse_twig_cache. destruct Ht as [->|(t1 & p1 & b1 & x1 & d1 & -> & Ht1 & Hp1 & Hx1 & Hd1)];
        destruct Hg as [->|(t2 & p2 & b2 & x2 & d2 & -> & Ht2 & Hp2 & Hx2 & Hd2)]; tidy; tsteps; apply HQ.
    - enter. unfold parse_twig_macro. destruct Hl as [p l d Hp Hl Hd]. tidy. tsteps. apply a_end_name; [exact Hj|exact Hc2|]. tsteps. apply HQ.
    - enter. unfold parse_twig_apply. assert (Hh : heads (TK_SINGLE_PIPE :: TAG_CLOSE) (fs ++ c1 :: b ++ o2 :: k2 :: c2 :: r)).
      { destruct Hfs as [|x fs Hx _]; cbn [app]; [apply heads_cons; eapply is_in; [exact Hc1|sub]|].
        apply heads_app, heads_app. eapply heads_in; [exact (filter_heads _ Hx)|sub]. }
      destruct Hl as [->|Hl]; [|destruct Hl as [p l d Hp Hl Hd]]; tidy; tsteps.
      + eapply (acc_at dbg N _ _ false); [eapply at_dec; [exact Hh|sub]|]. tidy. tsteps. apply a_filters; [exact Hfs|exact Hc1|]. intros m'. tsteps. apply HQ.
      + apply a_filters; [exact Hfs|exact Hc1|]. intros m'. tsteps. apply HQ.
    - destruct Hl as (i0 & w & on & -> & Hi & Hw & Hon).
      assert (K2 : is [TK_ENDEMBED; TK_SW_END_EMBED] k2).
      { destruct H as [H|[H|[]]]; injection H as <- <-; (eapply is_in; [exact Hk2|sub]). }
      assert (Z : forall (Q : unit -> list token -> Prop), Q tt (o2 :: k2 :: c2 :: r) ->
        acc (parse_body (a <- at_twig_tag TK_ENDEMBED ;; if a then Ret true else at_twig_tag TK_SW_END_EMBED) (pf f)) (b ++ o2 :: k2 :: c2 :: r) Q).
      { intros Q' HQ'. apply (a_body f _ [TK_ENDEMBED; TK_SW_END_EMBED]).
        - intros l Q2. apply early2.
        - sub.
        - exact Hb.
        - eapply tag_dec; [exact Ho2|exact K2|sub].
        - apply tag_ends; [exact Ho2|]. eapply is_in; [exact K2|sub].
        - exact HQ'. }
      destruct H as [H|[H|[]]]; injection H as <- <-; enter; unfold parse_twig_embed;
        (destruct Hi as [->|(ti & -> & Hi)]; destruct Hw as [->|(tw & bw & xw & -> & Hw & Hxw)]; destruct Hon as [->|(ton & -> & Hon)]; tidy; tsteps;
         apply Z; tsteps; apply HQ).
    - enter. unfold parse_twig_set, parse_set_assignment. tsteps.
      apply (a_names 1 [t] c1); [now constructor|eapply is_in; [exact Hc1|sub]|]. cbn [Nat.eqb Nat.ltb Nat.leb]. tidy. tsteps. apply HQ.
    - enter. unfold parse_twig_block. tsteps. apply a_end_name; [exact Hj|exact Hc2|]. tsteps. apply HQ.
    - enter. unfold parse_twig_component. destruct Hl as [->|(w & h & -> & Hw & Hh)]; [|pose proof (hash_heads _ Hh) as Hhh]; tidy; tsteps.
      + eapply a_body1; [exact Hb|exact Ho2|exact Hk2|right; auto|]. tsteps. apply HQ.
      + apply a_hash; [exact Hh|]. intros m'. tsteps. eapply a_body1; [exact Hb|exact Ho2|exact Hk2|right; auto|]. tsteps. apply HQ.
    - enter. unfold parse_twig_sw_silent_feature_call. tsteps. apply HQ.
  Qed.

  (** ** Loops and conditions *)

  Lemma a_body_n : forall f early kws S b o k l (Q : unit -> list token -> Prop),
    (forall l (Q : bool -> list token -> Prop), Q (tag_is kws l) l -> acc early l Q) ->
    content f b -> is TAG_OPEN o -> is S k ->
    forallb (fun k => negb (mem_kind k kws)) KEYWORDS = true -> const S (fun x => mem_kind x kws) true = true ->
    forallb (fun x => mem_kind x TERMINATION_KEYWORDS) S = true ->
    Q tt (o :: k :: l) -> acc (parse_body early (pf f)) (b ++ o :: k :: l) Q.
  Proof.
    intros f early kws S b o k l Q He Hb Ho Hk E1 E2 E3 HQ. apply (a_body f _ kws); [exact He|exact E1|exact Hb| | |exact HQ].
    - eapply tag_dec; [exact Ho|exact Hk|exact E2].
    - apply tag_ends; [exact Ho|]. exact (is_in _ _ _ Hk E3).
  Qed.

  Ltac ttag := eapply acc_at_twig_tag; [tdec|]; tidy.

  Lemma a_for : forall f i o b c r (Q : option nat -> list token -> Prop), for_inside i -> tag [TK_FOR] i o -> content f b -> tag [TK_ENDFOR] [] c ->
    (forall m, Q (Some m) r) -> acc (parse_twig_block_statement (pf f)) (o ++ b ++ c ++ r) Q.
  Proof.
    intros f i o b c r Q Hi Ho Hb Hc HQ. destruct Ho as (o1 & k1 & c1 & -> & Ho1 & Hk1 & Hc1). destruct Hc as (o2 & k2 & c2 & -> & Ho2 & Hk2 & Hc2).
    cbn [app]. tidy. enter. unfold parse_twig_for.
    destruct Hi as (v & j & bb & x & -> & Hv & Hj & Hx).
    destruct Hv as [(t & -> & Ht)|(t & dd & u & -> & Ht & Hdd & Hu)]; tidy; tsteps;
    (apply (a_body_n f _ [TK_ENDFOR; TK_ELSE] [TK_ENDFOR] b o2 k2); [intros l Q2; apply early2|exact Hb|exact Ho2|exact Hk2|sub|sub|sub|]);
    tsteps; ttag; tsteps; apply HQ.
  Qed.
  Lemma a_for_else : forall f i o b e d c r (Q : option nat -> list token -> Prop), for_inside i -> tag [TK_FOR] i o -> content f b -> tag [TK_ELSE] [] e ->
    content f d -> tag [TK_ENDFOR] [] c -> (forall m, Q (Some m) r) -> acc (parse_twig_block_statement (pf f)) (o ++ b ++ e ++ d ++ c ++ r) Q.
  Proof.
    intros f i o b e d c r Q Hi Ho Hb He Hd Hc HQ. destruct Ho as (o1 & k1 & c1 & -> & Ho1 & Hk1 & Hc1). destruct Hc as (o2 & k2 & c2 & -> & Ho2 & Hk2 & Hc2).
    destruct He as (o3 & k3 & c3 & -> & Ho3 & Hk3 & Hc3).
    cbn [app]. tidy. enter. unfold parse_twig_for.
    destruct Hi as (v & j & bb & x & -> & Hv & Hj & Hx).
    destruct Hv as [(t & -> & Ht)|(t & dd & u & -> & Ht & Hdd & Hu)]; tidy; tsteps;
    (apply (a_body_n f _ [TK_ENDFOR; TK_ELSE] [TK_ELSE] b o3 k3); [intros l Q2; apply early2|exact Hb|exact Ho3|exact Hk3|sub|sub|sub|]);
    tsteps; ttag; tsteps; apply HQ.
  Qed.

  Lemma a_if_body : forall f S b o k l (Q : unit -> list token -> Prop), content f b -> is TAG_OPEN o -> is S k ->
    const S (fun x => mem_kind x [TK_ENDIF; TK_ELSE_IF; TK_ELSE]) true = true -> Q tt (o :: k :: l) ->
    acc (parse_body (a <- at_twig_tag TK_ENDIF ;; if a then Ret true else
                b <- at_twig_tag TK_ELSE_IF ;; if b then Ret true else
                at_twig_tag TK_ELSE) (pf f)) (b ++ o :: k :: l) Q.
  Proof.
    intros f S b o k l Q Hb Ho Hk E HQ. assert (K : is [TK_ENDIF; TK_ELSE_IF; TK_ELSE] k).
    { eapply is_in; [exact Hk|]. unfold const in E. rewrite forallb_forall in *. intros x Hx. specialize (E x Hx). now apply eqb_prop in E. }
    apply (a_body_n f _ [TK_ENDIF; TK_ELSE_IF; TK_ELSE] [TK_ENDIF; TK_ELSE_IF; TK_ELSE] b o k); [intros l' Q2; apply early3|exact Hb|exact Ho|exact K|sub|sub|sub|exact HQ].
  Qed.
  Lemma a_branches : forall f x r (Q : unit -> list token -> Prop), branches f x ->
    (forall o k c, is TAG_OPEN o -> is [TK_ENDIF] k -> is TAG_CLOSE c -> Q tt (o :: k :: c :: r)) -> acc (parse_if_branches (pf f)) (x ++ r) Q.
  Proof.
    intros f x r Q Hx HQ. unfold parse_if_branches.
    apply (acc_iter dbg N _ _ _ (fun _ k => exists x, branches f x /\ k = x ++ r) (fun u k => Q u k)); [|eauto].
    intros _ k (y & Hy & ->). destruct Hy as [f b c Hb Hc|f b e d c Hb He Hd Hc|f b t x' e y Hb Hx' He Hy].
    - destruct Hc as (o1 & k1 & c1 & -> & Ho1 & Hk1 & Hc1). tidy. apply acc_bind.
      apply (a_if_body f [TK_ENDIF]); [exact Hb|exact Ho1|exact Hk1|sub|]. apply acc_bind. ttag. tsteps. now apply HQ.
    - destruct He as (o1 & k1 & c1 & -> & Ho1 & Hk1 & Hc1). tidy. apply acc_bind.
      apply (a_if_body f [TK_ELSE]); [exact Hb|exact Ho1|exact Hk1|sub|]. apply acc_bind. ttag. apply acc_bind. ttag. apply acc_bind. ttag. tsteps.
      exists (d ++ c). split; [now constructor|now rewrite <- app_assoc].
    - destruct He as (o1 & k1 & c1 & -> & Ho1 & Hk1 & Hc1). tidy. apply acc_bind.
      apply (a_if_body f [TK_ELSE_IF]); [exact Hb|exact Ho1|exact Hk1|sub|]. apply acc_bind. ttag. apply acc_bind. ttag. tsteps. eauto.
  Qed.
  Lemma a_if : forall f b x o y r (Q : option nat -> list token -> Prop), expr b x -> tag [TK_IF] x o -> branches f y -> (forall m, Q (Some m) r) ->
    acc (parse_twig_block_statement (pf f)) (o ++ y ++ r) Q.
  Proof.
    intros f b x o y r Q Hx Ho Hy HQ. destruct Ho as (o1 & k1 & c1 & -> & Ho1 & Hk1 & Hc1). cbn [app]. tidy. enter. unfold parse_twig_if. tsteps.
    apply a_branches; [exact Hy|]. intros o2 k2 c2 Ho2 Hk2 Hc2. tsteps. apply HQ.
  Qed.

  Lemma a_block : forall f l r (Q : option nat -> list token -> Prop), block f l -> (forall m, Q (Some m) r) ->
    acc (parse_twig_block_statement (pf f)) (l ++ r) Q.
  Proof.
    intros f l r Q H HQ.
    destruct H as [f k i l Hs Ht|f k i e E o b c j Hp Ho Hb Hj Hc|f b x o y Hx Ho Hy|f i o b c Hi Ho Hb Hc|f i o b e d c Hi Ho Hb He Hd Hc]; rewrite <- ?app_assoc.
    - eapply a_simple; eassumption.
    - eapply a_paired; eassumption.
    - eapply a_if; eassumption.
    - eapply a_for; eassumption.
    - eapply a_for_else; eassumption.
  Qed.

  (** ** Output and comments *)

  Lemma a_var : forall l r (Q : nat -> list token -> Prop), var_statement l -> (forall m, Q m r) -> acc parse_twig_var_statement (l ++ r) Q.
  Proof.
    intros l r Q (o & b & e & c & -> & Ho & He & Hc) HQ. unfold parse_twig_var_statement. tidy. tsteps. apply HQ.
  Qed.

  (** A comment that ends in one of [close]. *)
  Lemma a_comment_plain : forall early close i c w (Q : unit -> list token -> Prop),
    (forall t l (Q : bool -> list token -> Prop), Q (mem_kind (tk_kind t) close) (t :: l) -> acc early (t :: l) Q) ->
    mem_kind TK_UNKNOWN close = false -> Forall (fun t => ~ is close t) i -> is close c -> Q tt (c :: w) ->
    acc (parse_many early (bump ;; Ret tt)) (i ++ c :: w) Q.
  Proof.
    intros early close i c w Q He Hu Hi Hc HQ. eapply acc_conseq.
    - apply (acc_many_u dbg N _ _ (fun k => exists i, Forall (fun t => ~ is close t) i /\ k = i ++ c :: w) (fun k => k = c :: w)); [..|eauto].
      + intros (l & _ & E). destruct l; discriminate.
      + intros t k (l & Hl & E) K. destruct l as [|u l]; injection E as -> ->.
        * exfalso. apply is_mem in Hc. rewrite K in Hc. congruence.
        * inversion Hl. eauto.
      + intros t k (l & Hl & E) K. apply He. split; [reflexivity|]. destruct l as [|u l]; injection E as -> ->.
        * now rewrite (is_mem _ _ Hc).
        * inversion Hl as [|? ? Hu' Hl']; subst. rewrite (nmem_is _ _ Hu'). tsteps. left. split; [cbn [length]; lia|eauto].
    - intros [] k ->. exact HQ.
  Qed.

  Lemma a_rule_names : forall close l c w (Q : unit -> list token -> Prop), rule_names l -> is close c ->
    forallb (fun k => negb (mem_kind k close)) [TK_UNKNOWN; TK_WORD; TK_COMMA] = true -> Q tt (c :: w) ->
    acc (parse_many (at_set close) (expect TK_WORD (TK_COMMA :: close) ;; opt_bump TK_COMMA)) (l ++ c :: w) Q.
  Proof.
    intros close l c w Q Hl Hc E HQ. cbn [forallb] in E. rewrite !andb_true_iff, !negb_true_iff in E. destruct E as (E1 & E2 & E3 & _).
    assert (Kc : forall k, mem_kind k close = false -> kind_eqb (tk_kind c) k = false).
    { intros k Hk. destruct (kind_eqb (tk_kind c) k) eqn:B; [|reflexivity]. apply kind_eqb_eq in B. apply is_mem in Hc. congruence. }
    assert (Kw : forall t l, is [TK_WORD] t -> l_at_set close (t :: l) = false) by (intros t k H; apply is1 in H; cbn [l_at_set]; now rewrite H).
    eapply acc_conseq.
    - apply (acc_many_u dbg N _ _ (fun k => exists l, rule_names l /\ k = l ++ c :: w) (fun k => k = c :: w)); [..|eauto].
      + intros (l' & _ & E). destruct l'; discriminate.
      + intros t k (l' & Hl' & E) K. exfalso. destruct Hl' as [|u Hu|u d l' Hu _ _]; injection E as -> _.
        * apply is_mem in Hc. congruence.
        * apply is1 in Hu. congruence.
        * apply is1 in Hu. congruence.
      + intros t k (l' & Hl' & E) K. rewrite E. clear E K. destruct Hl' as [|u Hu|u d l' Hu Hd Hl']; cbn [app].
        * eapply acc_at_set; [exact (is_mem _ _ Hc)|]. auto.
        * eapply acc_at_set; [now apply Kw|]. split; [reflexivity|]. tidy. tsteps. eapply acc_at; [cbn [l_at]; now apply Kc|]. tidy. tsteps.
          left. split; [cbn [length]; lia|]. exists []. split; [constructor|reflexivity].
        * eapply acc_at_set; [now apply Kw|]. split; [reflexivity|]. tidy. tsteps. left. split; [cbn [length]; lia|eauto].
    - intros [] k ->. exact HQ.
  Qed.

  Lemma a_directive : forall close d l c w m (Q : nat -> list token -> Prop), is DIRECTIVES d -> rule_names l -> is close c ->
    forallb (fun k => negb (mem_kind k close)) [TK_UNKNOWN; TK_WORD; TK_COMMA] = true -> (forall m, Q m w) ->
    acc (parse_ludtwig_directive m close) (d :: l ++ c :: w) Q.
  Proof.
    intros close d l c w m Q Hd Hl Hc E HQ. unfold parse_ludtwig_directive. tsteps. eapply acc_at; [reflexivity|]. tsteps.
    apply a_rule_names; [exact Hl|exact Hc|exact E|]. tsteps. eapply acc_expect_any; [exact (is_mem _ _ Hc)|]. tsteps. apply HQ.
  Qed.

  Lemma a_comment : forall l r (Q : nat -> list token -> Prop), comment_statement l -> (forall m, Q m r) -> acc parse_twig_comment_statement (l ++ r) Q.
  Proof.
    intros l r Q (o & i & c & -> & Ho & Hi & Hc) HQ. unfold parse_twig_comment_statement. tidy. tsteps.
    destruct Hi as [[Hi Hd]|(d & l & -> & Hd & Hl)].
    - assert (X : l_at_set DIRECTIVES (i ++ c :: r) = false).
      { destruct i as [|t i]; cbn [app l_at_set].
        - hd_dec.
        - apply nmem_is. now apply (Hd t i). }
      eapply acc_at_set; [exact X|]. tidy. unfold parse_twig_plain_comment. tsteps.
      apply (a_comment_plain _ COMMENT_CLOSE); [|sub|exact Hi|exact Hc|].
      + intros t l Q2 HQ2. eapply acc_at_set; [reflexivity|exact HQ2].
      + tsteps. apply HQ.
    - tidy. tsteps. apply a_directive; [exact Hd|exact Hl|exact Hc|sub|]. intros m'. apply HQ.
  Qed.

  Lemma a_statement : forall f l r (Q : option nat -> list token -> Prop), statement f l -> (forall m, Q (Some m) r) ->
    acc (parse_any_twig (pf f)) (l ++ r) Q.
  Proof.
    intros f l r Q H HQ. unfold parse_any_twig. destruct H as [f l H|f l H|f l _ H].
    - destruct (block_heads _ _ H) as (o & k & l' & E & Ho & _). assert (Hh : heads TAG_OPEN l) by (rewrite E; exact Ho). tsteps. now apply a_block.
    - pose proof (comment_heads _ H) as Hh. tsteps. apply a_comment; [exact H|]. intros m. tsteps. apply HQ.
    - pose proof (var_heads _ H) as Hh. tsteps. apply a_var; [exact H|]. intros m. tsteps. apply HQ.
  Qed.
  Lemma a_no_statement : forall f t l (Q : option nat -> list token -> Prop), ~ is (TAG_OPEN ++ VAR_OPEN ++ COMMENT_OPEN) t -> Q None (t :: l) ->
    acc (parse_any_twig (pf f)) (t :: l) Q.
  Proof.
    intros f t l Q H HQ. unfold parse_any_twig. apply not_is in H. tsteps. exact HQ.
  Qed.
End Tags.
