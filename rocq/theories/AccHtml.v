(** The parser accepts the HTML of AccSpec.v. *)
From Coq Require Import NArith String Bool Arith Lia List.
Import ListNotations.
From Verif Require Import Text Kind Regex Lexer LexerProofs ParserApi GrammarExpr GrammarTags GrammarHtml Machine TreeMachine Simulation.
From Verif Require Import AccLogic AccSpec AccRules AccExpr AccTags.
Local Notation length := List.length (only parsing).
Local Open Scope list_scope.
Local Open Scope prog_scope.

Definition OPENS : list kind := TAG_OPEN ++ VAR_OPEN ++ COMMENT_OPEN.

(** * Names and neighbours *)

Lemma tag_name_kind : forall t, ok t -> tag_name t -> is NAMES t.
Proof.
  intros t [O _] H. destruct (kind_eqb (tk_kind t) TK_TWIG_COMPONENT_NAME) eqn:K.
  - apply kind_eqb_eq in K. eapply is_in; [exact (kind_is1 _ _ K)|sub].
  - assert (K' : tk_kind t <> TK_TWIG_COMPONENT_NAME) by (intros E; rewrite E in K; vm_compute in K; discriminate K).
    apply not_is. intros [G|G].
    + destruct H as [H|[H _]]; [now apply K'|]. apply H. now symmetry.
    + assert (P : mem_kind (tk_kind t) PUNCT = true) by now apply is_mem. destruct (O P) as (_ & R & _). rewrite tag_name_regex in R by assumption. discriminate R.
Qed.

(** The remaining tokens start with [t]. *)
Lemma raw_head : forall r t l, drop_trivia r = r -> nontriv r = t :: l -> exists r', r = t :: r'.
Proof. intros r t l D R. destruct (drop_head _ _ _ R) as (r' & E & _). exists r'. now rewrite <- D. Qed.
Lemma raw_head2 : forall r t u l, drop_trivia r = r -> lexed r -> nontriv r = t :: u :: l -> tk_end t = tk_start u -> exists r', r = t :: u :: r'.
Proof. intros r t u l D L R A. destruct (drop_head2 _ _ _ _ L R A) as (r' & E & _). exists r'. now rewrite <- D. Qed.

(** Text ends before what follows the content and before an item that is not plain text. *)
Definition cut (l : list token) : Prop :=
  heads (TK_LESS_THAN_SLASH :: minus STARTERS [TK_LESS_THAN]) l \/
  exists o n l', l = o :: n :: l' /\ is [TK_LESS_THAN] o /\ tk_end o = tk_start n /\ is NAMES n.

Lemma cut_end : forall l r, cut l -> drop_trivia r = r -> nontriv r = l -> lexed r -> l_html_text_end r = true.
Proof.
  intros l r [H|(o & n & l' & -> & Ho & A & Hn)] D R L; unfold l_html_text_end.
  - destruct l as [|t l]; [destruct H|]. destruct (raw_head _ _ _ D R) as (r' & ->).
    assert (E : l_at TK_LESS_THAN (t :: r') = false) by (eapply at_dec; [exact H|sub]).
    unfold l_less_than_non_word. rewrite E. cbn [andb negb]. rewrite andb_true_r. cbn [l_at_set].
    change (mem_kind (tk_kind t) [TK_LESS_THAN_SLASH] || mem_kind (tk_kind t) GENERAL_RECOVERY_SET)
      with ((fun x => mem_kind x [TK_LESS_THAN_SLASH] || mem_kind x GENERAL_RECOVERY_SET) (tk_kind t)).
    eapply kdec; [exact H|sub].
  - destruct (raw_head2 _ _ _ _ D L R A) as (r' & ->). unfold l_less_than_non_word. cbn [nth_error l_at_set l_at].
    pose proof (is1 _ _ Ho) as K. rewrite K.
    assert (X : kind_eqb (tk_kind n) TK_WHITESPACE || kind_eqb (tk_kind n) TK_NUMBER || mem_kind (tk_kind n) GENERAL_RECOVERY_SET = false).
    { exact (kdec NAMES n (fun x => kind_eqb x TK_WHITESPACE || kind_eqb x TK_NUMBER || mem_kind x GENERAL_RECOVERY_SET) false Hn ltac:(sub)). }
    rewrite X. sub.
Qed.
Lemma plain_end : forall t r, ~ is (TK_LESS_THAN_SLASH :: STARTERS) t -> l_html_text_end (t :: r) = false.
Proof.
  intros t r H. apply not_is in H. unfold l_html_text_end.
  assert (E1 : l_at_set [TK_LESS_THAN_SLASH] (t :: r) = false) by (eapply at_set_dec; [apply heads_cons; exact H|sub]).
  assert (E2 : l_at_set GENERAL_RECOVERY_SET (t :: r) = false) by (eapply at_set_dec; [apply heads_cons; exact H|sub]).
  now rewrite E1, E2.
Qed.
Lemma item_cut : forall x r, item InBody x -> Forall ok (x ++ r) -> cut (x ++ r) \/ exists t, x = [t] /\ plain InBody t.
Proof.
  intros x r H F. inversion H as [f t P E1 E2|f l S E1 E2| | |o n a g b s m c Ho A Hn Ha Hg V1 V2 Hb Hs Hk Ht Hc E|o n a g b s m c Ho A Hn Ha Hg V1 V2 Hb Hs Hk Ht Hc E
    |o n a g Ho A Hn Ha Hg E|o i c Ho Hi Hc E|o d w c Ho Hd Hw Hc E]; subst.
  - right. eauto.
  - left. left. apply heads_app. eapply heads_in; [exact (statement_heads _ _ S)|sub].
  - left. right. cbn [app] in F |- *. inversion F as [|? ? _ F2]. inversion F2 as [|? ? F3 _]. exists o, n. eexists. split; [reflexivity|]. auto using tag_name_kind.
  - left. right. cbn [app] in F |- *. inversion F as [|? ? _ F2]. inversion F2 as [|? ? F3 _]. exists o, n. eexists. split; [reflexivity|]. auto using tag_name_kind.
  - left. right. cbn [app] in F |- *. inversion F as [|? ? _ F2]. inversion F2 as [|? ? F3 _]. exists o, n. eexists. split; [reflexivity|]. auto using tag_name_kind.
  - left. left. cbn [app]. eapply heads_in; [apply (heads_cons [TK_LESS_THAN_EXCLAMATION_MARK_MINUS_MINUS]); exact Ho|sub].
  - left. left. cbn [app]. eapply heads_in; [apply (heads_cons [TK_LESS_THAN_EXCLAMATION_MARK]); exact Ho|sub].
Qed.
Lemma item_no_end : forall x, item InBody x -> heads (minus all_kinds [TK_LESS_THAN_SLASH]) x.
Proof.
  intros x H. inversion H as [f t P E1 E2|f l S E1 E2| | |o n a g b s m c Ho A Hn Ha Hg V1 V2 Hb Hs Hk Ht Hc E|o n a g b s m c Ho A Hn Ha Hg V1 V2 Hb Hs Hk Ht Hc E
    |o n a g Ho A Hn Ha Hg E|o i c Ho Hi Hc E|o d w c Ho Hd Hw Hc E]; subst; try (apply heads_cons; eapply is_in; [exact Ho|sub]).
  - apply heads_cons, not_is. intros G. apply P. eapply is_in; [exact G|sub].
  - eapply heads_in; [exact (statement_heads _ _ S)|sub].
Qed.
Lemma body_cut : forall l r, content InBody l -> stops (TK_LESS_THAN_SLASH :: TAG_OPEN) r -> Forall ok (l ++ r) ->
  l ++ r = [] \/ cut (l ++ r) \/ exists t l', l = t :: l' /\ plain InBody t /\ content InBody l'.
Proof.
  intros l r H Hr F. destruct (content_inv _ _ H) as [->|(x & l' & -> & Hx & Hl)].
  - destruct Hr as [->|Hr]; [now left|]. right. left. left. cbn [app]. eapply heads_in; [exact Hr|sub].
  - right. rewrite <- app_assoc in *. destruct (item_cut _ _ Hx F) as [C|(t & -> & P)]; [left; exact C|]. right. cbn [app]. eauto.
Qed.

(** The end tag [</name], spaces or none in between. *)
Definition end_tag (k : kind) (w : text) (l : list token) : bool :=
  match l with
  | s :: m :: _ => kind_eqb (tk_kind s) TK_LESS_THAN_SLASH && (kind_eqb (tk_kind m) k && text_eqb w (tk_text m))
  | _ => false
  end.

Section Html.
  Context (dbg : bool) (N : nat) (IH : forall N', N' < N -> Children dbg N').
  Local Notation acc := (acc dbg N).

  Lemma acc_end_tag : forall k w l v (Q : bool -> list token -> Prop), end_tag k w l = v -> Q v l ->
    acc (at_following_content [(TK_LESS_THAN_SLASH, None); (k, Some w)]) l Q.
  Proof.
    intros k w l v Q <- H. apply (acc_lookg dbg N _ _ (end_tag k w)); [|exact H]. intros [|t r] D; [reflexivity|].
    unfold l_following_content, end_tag. rewrite (nontriv_cons _ _ D). cbn [l_follow].
    destruct (kind_eqb (tk_kind t) TK_LESS_THAN_SLASH); cbn [andb].
    - destruct (nontriv r) as [|u r']; [reflexivity|]. destruct (_ && _); [|reflexivity]. now destruct r'.
    - now destruct (nontriv r).
  Qed.
  Lemma a_early : forall k w met l (Q : bool * bool -> list token -> Prop),
    Q (if end_tag k w l then (true, true) else (tag_is TERMINATION_KEYWORDS l, met)) l -> acc (early_end_tag k w met) l Q.
  Proof.
    intros k w met l Q H. unfold early_end_tag. apply acc_bind. eapply acc_end_tag; [reflexivity|]. destruct (end_tag k w l).
    - now apply acc_ret.
    - apply acc_bind. eapply acc_at_termination; [reflexivity|]. now apply acc_ret.
  Qed.
  Lemma a_call : forall f t l r (Q : option nat -> list token -> Prop), content f (t :: l) -> tk_kind t <> TK_UNKNOWN -> ends f r ->
    (forall o l2, (f = InBody -> o <> None) -> content f l2 -> length l2 <= length l -> Q o (l2 ++ r)) ->
    acc (Call (CChild (pf f)) (fun r => Ret r)) (t :: l ++ r) Q.
  Proof.
    intros f t l r Q Hl K Hr HQ. apply acc_call. intros N' L. eapply acc_conseq; [exact (x_child _ _ (IH N' L) f t l r Hl K Hr)|].
    intros o k (H & l2 & Hl2 & -> & Hlen). now apply HQ.
  Qed.
  Lemma a_call_child : forall f t l r (Q : unit -> list token -> Prop), content f (t :: l) -> tk_kind t <> TK_UNKNOWN -> ends f r ->
    (forall l2, content f l2 -> length l2 <= length l -> Q tt (l2 ++ r)) -> acc (call_child (pf f)) (t :: l ++ r) Q.
  Proof.
    intros f t l r Q Hl K Hr HQ. unfold call_child.
    change (Call (CChild (pf f)) (fun _ : option nat => Ret tt)) with (bind (Call (CChild (pf f)) (fun r => Ret r)) (fun _ => Ret tt)).
    apply acc_bind, a_call; auto. intros o l2 _ Hl2 Hlen. apply acc_ret. now apply HQ.
  Qed.

  (** ** Text, comments and document types *)

  Lemma a_text : forall t l r (Q : option nat -> list token -> Prop), plain InBody t -> content InBody l -> stops (TK_LESS_THAN_SLASH :: TAG_OPEN) r ->
    tk_kind t <> TK_UNKNOWN ->
    (forall m l2, content InBody l2 -> length l2 <= length l -> Q (Some m) (l2 ++ r)) -> acc parse_html_text (t :: l ++ r) Q.
  Proof.
    intros t l r Q Ht Hl Hr U HQ. unfold parse_html_text. apply acc_bind, acc_look_raw. intros rr D R L.
    destruct (raw_head _ _ _ D R) as (r' & ->). rewrite (plain_end _ _ Ht). cbn [l_at_end orb]. esteps.
    apply acc_ok. fold ok. intros F. eapply acc_conseq.
    - apply (acc_many_u dbg N _ _
        (fun k => k = t :: l ++ r \/ exists l2, content InBody l2 /\ k = l2 ++ r /\ length l2 <= length l /\ Forall ok k)
        (fun k => exists l2, content InBody l2 /\ k = l2 ++ r /\ length l2 <= length l)); [..|left; reflexivity].
      + intros [E|(l2 & H2 & E & Hlen & _)]; [discriminate|eauto].
      + intros u k [E|(l2 & H2 & E & Hlen & F2)] K.
        * injection E as -> ->. now destruct U.
        * destruct l2 as [|v l2].
          -- exfalso. cbn [app] in E. rewrite <- E in Hr. destruct Hr as [?|Hr]; [discriminate|]. refine (disj _ _ _ (kind_is1 _ _ K) Hr _). sub.
          -- injection E as <- ->. right. exists l2. split; [eapply content_unknown; eassumption|]. split; [reflexivity|].
             split; [cbn [List.length] in Hlen; lia|now inversion F2].
      + intros u k Hi K. apply acc_look_raw. intros r2 D2 R2 L2. split; [reflexivity|]. destruct Hi as [E|(l2 & H2 & E & Hlen & F2)].
        * injection E as -> ->. destruct (raw_head _ _ _ D2 R2) as (r3 & ->). rewrite (plain_end _ _ Ht). esteps. left.
          split; [cbn [List.length]; lia|]. right. exists l. split; [exact Hl|]. split; [reflexivity|]. split; [lia|]. now inversion F.
        * rewrite E in F2. destruct (body_cut _ _ H2 Hr F2) as [E0|[C|(v & l3 & -> & P & H3)]].
          -- rewrite E0 in E. discriminate.
          -- rewrite (cut_end (l2 ++ r) r2 C D2) by (assumption || congruence). eauto.
          -- cbn [app] in E. injection E as -> ->. destruct (raw_head _ _ _ D2 R2) as (r3 & ->). rewrite (plain_end _ _ P). esteps. left.
             split; [cbn [List.length]; lia|]. right. exists l3. split; [exact H3|]. split; [reflexivity|].
             split; [cbn [List.length] in Hlen; lia|]. now inversion F2.
    - intros [] k (l2 & H2 & -> & Hlen). esteps. now apply HQ.
  Qed.

  Lemma a_html_comment : forall o i c r (Q : nat -> list token -> Prop), is [TK_LESS_THAN_EXCLAMATION_MARK_MINUS_MINUS] o ->
    comment_inner [TK_MINUS_MINUS_GREATER_THAN] i -> is [TK_MINUS_MINUS_GREATER_THAN] c -> (forall m, Q m r) ->
    acc parse_html_comment (o :: i ++ c :: r) Q.
  Proof.
    intros o i c r Q Ho Hi Hc HQ. unfold parse_html_comment. tidy. esteps.
    destruct Hi as [[Hi Hd]|(d & l & -> & Hd & Hl)].
    - assert (X : l_at_set DIRECTIVES (i ++ c :: r) = false).
      { destruct i as [|t i]; cbn [app l_at_set].
        - hd_dec.
        - apply nmem_is. now apply (Hd t i). }
      eapply acc_at_set; [exact X|]. tidy. unfold parse_plain_html_comment. esteps.
      apply (a_comment_plain dbg N _ [TK_MINUS_MINUS_GREATER_THAN]); [|sub|exact Hi|exact Hc|].
      + intros t l Q2 HQ2. eapply acc_at; [reflexivity|]. cbn [l_at]. cbn [mem_kind existsb] in HQ2. rewrite orb_false_r in HQ2. exact HQ2.
      + esteps. apply HQ.
    - tidy. esteps. apply a_directive; [exact Hd|exact Hl|exact Hc|sub|]. intros m'. apply HQ.
  Qed.
  Lemma a_doctype : forall o d w c r (Q : nat -> list token -> Prop), is [TK_LESS_THAN_EXCLAMATION_MARK] o -> is [TK_DOCTYPE] d -> is [TK_WORD] w ->
    is [TK_GREATER_THAN] c -> (forall m, Q m r) -> acc parse_html_doctype (o :: d :: w :: c :: r) Q.
  Proof. intros o d w c r Q Ho Hd Hw Hc HQ. unfold parse_html_doctype. esteps. apply HQ. Qed.

  (** ** Loops over content *)

  Lemma acc_ok_post : forall (A : Set) (p : prog A) l (Q : A -> list token -> Prop), acc p l (fun a k => Forall ok k -> Q a k) -> acc p l Q.
  Proof.
    intros A p l Q H n s Ln G. specialize (H n s Ln G). unfold post in *. destruct (run _ n p s) as [[a s']|q|]; auto.
    destruct H as (k & G2 & A2 & H). exists k. split; [exact G2|]. split; [exact A2|]. apply H. destruct G2 as (<- & [_ F] & _). apply Forall_forall.
    intros t Ht. unfold nontriv in Ht. apply filter_In in Ht as [Ht K]. split; [now apply (proj1 (Forall_forall _ _) F)|].
    now destruct (is_trivia _).
  Qed.

  Lemma a_loop : forall f early child l r (Q : unit -> list token -> Prop), content f l -> ~ heads [TK_UNKNOWN] r ->
    (forall t r' (Q2 : bool -> list token -> Prop), r = t :: r' -> Q2 true r -> acc early r Q2) ->
    (forall u l (Q2 : bool -> list token -> Prop), content f (u :: l) -> Forall ok (u :: l ++ r) -> Q2 false (u :: l ++ r) -> acc early (u :: l ++ r) Q2) ->
    (forall u l (Q2 : unit -> list token -> Prop), content f (u :: l) -> tk_kind u <> TK_UNKNOWN -> Forall ok (u :: l ++ r) ->
      (forall l2, content f l2 -> length l2 <= length l -> Q2 tt (l2 ++ r)) -> acc child (u :: l ++ r) Q2) ->
    Q tt r -> acc (parse_many early child) (l ++ r) Q.
  Proof.
    intros f early child l r Q Hl Hr He1 He2 Hc HQ. apply acc_ok. fold ok. intros F. eapply acc_conseq.
    - apply (acc_many_u dbg N _ _ (fun k => exists l, content f l /\ k = l ++ r /\ Forall ok k) (fun k => k = r)); [..|eauto].
      + intros (l' & _ & E & _). apply eq_sym in E. apply app_eq_nil in E as [_ ->]. reflexivity.
      + intros t k (l' & Hl' & E & G) K. destruct l' as [|u l'].
        * exfalso. cbn [app] in E. rewrite <- E in Hr. apply Hr, heads_cons, kind_is1, K.
        * injection E as <- ->. exists l'. split; [eapply content_unknown; eassumption|]. split; [reflexivity|]. now inversion G.
      + intros t k (l' & Hl' & E & G) K. rewrite E in G |- *. destruct l' as [|u l']; cbn [app] in *.
        * apply (He1 t k); [now symmetry|]. auto.
        * injection E as -> ->. apply He2; [exact Hl'|exact G|]. split; [reflexivity|]. apply acc_ok_post, Hc; [exact Hl'|exact K|exact G|].
          intros l2 H2 Hlen F2. left. split; [cbn [List.length]; rewrite !app_length; lia|]. eauto.
    - intros [] k ->. exact HQ.
  Qed.

  Lemma item_str : forall f x, f <> InBody -> f <> InAttributes -> item f x -> (exists t, x = [t] /\ plain f t) \/ statement f x.
  Proof. intros f x N1 N2 H. destruct H; try (now destruct N1); try (now destruct N2); eauto. Qed.
  Lemma plain_opens : forall f t, plain f t -> ~ is OPENS t.
  Proof. intros f t H G. destruct f; cbn [plain] in H; try (now destruct H); apply H; (eapply is_in; [exact G|sub]). Qed.
  Lemma ends_term : forall f r, ends f r -> tag_is TERMINATION_KEYWORDS r = true -> ~ heads [TK_UNKNOWN] r.
  Proof.
    intros f r _ T H. destruct r as [|t r]; [destruct H|]. apply (heads_is [TK_UNKNOWN] t r) in H. apply is1 in H. cbn [tag_is] in T. destruct r; [discriminate T|].
    rewrite H in T. apply andb_true_iff in T as [T _]. vm_compute in T. discriminate T.
  Qed.
  (** One item of text or Twig, in a script or a quoted value *)
  Lemma a_piece : forall f u l r other (Q : unit -> list token -> Prop), f <> InBody -> f <> InAttributes -> content f (u :: l) -> Forall ok (u :: l ++ r) ->
    (forall w (Q2 : unit -> list token -> Prop), plain f u -> Q2 tt w -> acc other (u :: w) Q2) ->
    (forall l2, content f l2 -> length l2 <= length l -> Q tt (l2 ++ r)) ->
    acc (r <- parse_any_twig (pf f) ;; when (is_none r) other) (u :: l ++ r) Q.
  Proof.
    intros f u l r other Q N1 N2 H F Ho HQ. apply acc_bind. destruct (content_inv _ _ H) as [?|(x & l' & Ex & Hx & Hl)]; [discriminate|].
    destruct (item_str _ _ N1 N2 Hx) as [(t & -> & P)|S].
    - injection Ex as -> ->. apply (a_no_statement dbg N); [exact (plain_opens _ _ P)|]. esteps. apply Ho; [exact P|]. apply HQ; [exact Hl|lia].
    - change (u :: l ++ r) with ((u :: l) ++ r) in *. rewrite Ex, <- app_assoc. apply (a_statement dbg N IH _ x); [exact S|]. intros m. esteps.
      apply HQ; [exact Hl|]. apply (f_equal (@List.length token)) in Ex. cbn [List.length] in Ex. rewrite app_length in Ex.
      pose proof (statement_heads _ _ S) as G. destruct x; [destruct G|]. cbn [List.length] in Ex. lia.
  Qed.

  Lemma a_raw_inner : forall l r (Q : option nat -> list token -> Prop), content InRaw l -> tag_is TERMINATION_KEYWORDS r = true ->
    (forall o, Q o r) -> acc body_raw_inner (l ++ r) Q.
  Proof.
    intros l r Q Hl Hr HQ. unfold body_raw_inner. esteps. apply (a_loop InRaw); [exact Hl|exact (ends_term InRaw r Hr Hr)|..].
    - intros t r' Q2 _ H. eapply acc_at_termination; [exact Hr|exact H].
    - intros u k Q2 Hk F H. eapply acc_at_termination; [|exact H]. eapply content_tag; [exact Hk|sub|exact F].
    - intros u k Q2 Hk _ F H. apply (a_piece InRaw); [discriminate|discriminate|exact Hk|exact F| |exact H].
      intros w Q3 _ H3. esteps. exact H3.
    - esteps. apply HQ.
  Qed.

  Lemma a_stop : forall k l v (Q : bool -> list token -> Prop), l_at k l || tag_is TERMINATION_KEYWORDS l = v -> Q v l ->
    acc (look (fun r => l_at k r || l_termination_tag r)) l Q.
  Proof.
    intros k l v Q <- H. apply (acc_lookg dbg N _ _ (fun l => l_at k l || tag_is TERMINATION_KEYWORDS l)); [|exact H].
    intros r D. f_equal; [|exact (tag_is_open TERMINATION_KEYWORDS r D)]. destruct r as [|t r]; [reflexivity|]. now rewrite (nontriv_cons _ _ D).
  Qed.
  Lemma a_quoted : forall f q l r (Q : unit -> list token -> Prop), (f, q) = (InDouble, TK_DOUBLE_QUOTES) \/ (f, q) = (InSingle, TK_SINGLE_QUOTES) ->
    content f l -> ends f r -> Q tt r ->
    acc (parse_many (look (fun r => l_at q r || l_termination_tag r)) (html_string_child (pf f))) (l ++ r) Q.
  Proof.
    intros f q l r Q Hf Hl Hr HQ.
    assert (N1 : f <> InBody /\ f <> InAttributes) by (destruct Hf as [Hf|Hf]; injection Hf as -> ->; split; discriminate).
    destruct N1 as [N1 N2].
    assert (E : heads [q] r \/ tag_is TERMINATION_KEYWORDS r = true) by (destruct Hf as [Hf|Hf]; injection Hf as -> ->; exact Hr).
    assert (Hq : mem_kind q [TK_DOUBLE_QUOTES; TK_SINGLE_QUOTES] = true) by (destruct Hf as [Hf|Hf]; injection Hf as -> ->; sub).
    apply (a_loop f); [exact Hl|..|exact HQ].
    - destruct E as [E|E]; [|exact (ends_term f r Hr E)]. intros G. destruct r as [|t r]; [destruct G|].
      apply (heads_is [q] t r) in E. apply (heads_is [TK_UNKNOWN] t r) in G. apply is1 in E. apply is1 in G. rewrite <- E, G in Hq. vm_compute in Hq. discriminate Hq.
    - intros t r' Q2 _ H. eapply a_stop; [|exact H]. destruct E as [E|E]; [|rewrite E; apply orb_true_r].
      destruct r as [|v r]; [destruct E|]. apply (heads_is [q] v r) in E. apply is1 in E. cbn [l_at]. now rewrite E, kind_eqb_refl.
    - intros u k Q2 Hk F H. eapply a_stop; [|exact H]. rewrite (content_tag f u k r TERMINATION_KEYWORDS Hk ltac:(sub) F), orb_false_r. cbn [l_at].
      destruct (content_inv _ _ Hk) as [?|(x & l' & Ex & Hx & _)]; [discriminate|]. destruct (item_str _ _ N1 N2 Hx) as [(t & -> & P)|S].
      + injection Ex as -> _. destruct Hf as [Hf|Hf]; injection Hf as -> ->; cbn [plain] in P; apply not_is in P; hd_dec.
      + pose proof (statement_heads _ _ S) as G. destruct x as [|v x]; [destruct G|]. injection Ex as -> _. apply (heads_is _ v x) in G.
        destruct Hf as [Hf|Hf]; injection Hf as -> ->; hd_dec.
    - intros u k Q2 Hk _ F H. unfold html_string_child. apply (a_piece f); [exact N1|exact N2|exact Hk|exact F| |exact H].
      intros w Q3 P H3. apply acc_bind. apply acc_look; [now apply insens_head|].
      replace (_ || _ || _) with false; [esteps; exact H3|]. symmetry. cbn [l_at_set l_at_end]. rewrite orb_false_r.
      destruct Hf as [Hf|Hf]; injection Hf as -> ->; cbn [plain] in P; apply not_is in P;
        match goal with H : is ?S u |- _ => exact (kdec S u (fun x => mem_kind x [TK_GREATER_THAN; TK_SLASH_GREATER_THAN] || mem_kind x GENERAL_RECOVERY_SET) false H ltac:(sub)) end.
  Qed.

  (** ** Attributes *)

  Definition AFTER_ATTR : list kind := ATTRS ++ TK_GREATER_THAN :: TK_SLASH_GREATER_THAN :: TAG_OPEN.
  Lemma after_attr : forall l r, content InAttributes l -> ends InAttributes r -> Forall ok (l ++ r) -> heads AFTER_ATTR (l ++ r).
  Proof.
    intros l r H Hr F. destruct (content_inv _ _ H) as [->|(x & l' & -> & Hx & _)].
    - eapply heads_in; [exact Hr|sub].
    - rewrite <- app_assoc in *. apply heads_app. eapply heads_in; [exact (item_attrs _ _ F Hx)|sub].
  Qed.
  Lemma a_value : forall m v r (Q : option nat -> list token -> Prop), value v -> heads AFTER_ATTR r -> (forall m, Q (Some m) r) ->
    acc (parse_html_attribute_rest m) (v ++ r) Q.
  Proof.
    intros m v r Q Hv Hr HQ. unfold parse_html_attribute_rest, parse_html_attribute_value_string. destruct Hv as [|q w Hq Hw|q l Hq Hl|q o l c Hq Ho Hl Hc|q o l c Hq Ho Hl Hc]; cbn [app].
    - esteps. apply HQ.
    - esteps. unfold inner_no_quote_parser. esteps. apply HQ.
    - pose proof (var_heads _ Hl) as Hh. esteps. unfold inner_no_quote_parser. esteps. apply (a_var dbg N); [exact Hl|]. intros m'. esteps. apply HQ.
    - esteps. rewrite (is1 _ _ Ho). cbn [tk_kind]. unfold inner_double_quote_parser. esteps. apply (a_quoted InDouble TK_DOUBLE_QUOTES); [now left|exact Hl|left; exact Hc|]. esteps. apply HQ.
    - esteps. rewrite (is1 _ _ Ho). cbn [tk_kind]. unfold inner_single_quote_parser. esteps. apply (a_quoted InSingle TK_SINGLE_QUOTES); [now right|exact Hl|left; exact Hc|]. esteps. apply HQ.
  Qed.

  Lemma a_attr : forall t l r (Q : option nat -> list token -> Prop), content InAttributes (t :: l) -> ends InAttributes r ->
    (forall o l2, content InAttributes l2 -> length l2 <= length l -> Q o (l2 ++ r)) -> acc body_attr (t :: l ++ r) Q.
  Proof.
    intros t l r Q H Hr HQ. apply acc_ok. fold ok. intros F. destruct (content_inv _ _ H) as [?|(x & l' & Ex & Hx & Hl)]; [discriminate|].
    change (t :: l ++ r) with ((t :: l) ++ r) in *. rewrite Ex, <- app_assoc in *.
    assert (Hlen : length l' <= length l).
    { destruct (item_cons _ _ _ Hx F) as (v & x' & ->). injection Ex as _ ->. rewrite app_length. lia. }
    assert (Ha : heads AFTER_ATTR (l' ++ r)). { apply after_attr; [exact Hl|exact Hr|]. apply Forall_app in F. apply F. }
    assert (HQ' : forall o, Q o (l' ++ r)) by auto. clear HQ H Ex Hlen. unfold body_attr. apply acc_bind.
    assert (X : forall x', heads OPENS x' -> Forall ok (x' ++ l' ++ r) -> acc (
       If at_twig_var_open Then
        attribute_m <- start ;;
        parse_twig_var_statement ;;
        parse_html_attribute_rest attribute_m
      Else parse_any_twig PFAttr) (x' ++ l' ++ r) Q ->
      acc (look l_attr_text) (x' ++ l' ++ r) (fun a l0 => acc (match a with
  | None => Ret None
  | Some token_text =>
    if rfull HTML_ATTRIBUTE_NAME_REGEX token_text then
      attribute_m <- start ;;
      (If at_ TK_COLON Then bump_next_n_as 2 TK_WORD ;; Ret tt
       Else (bump_as TK_WORD ;; Ret tt)) ;;
      parse_html_attribute_rest attribute_m
    else
      If at_twig_var_open Then
        attribute_m <- start ;;
        parse_twig_var_statement ;;
        parse_html_attribute_rest attribute_m
      Else parse_any_twig PFAttr
  end) l0 Q)).
    { intros x' G F' A. apply acc_look_raw. intros r0 D R L. destruct x' as [|v x']; [destruct G|]. cbn [app] in R. destruct (raw_head _ _ _ D R) as (r' & ->).
      apply (heads_is OPENS v x') in G. unfold l_attr_text. replace (l_at TK_COLON (v :: r')) with false by (symmetry; cbn [l_at]; hd_dec).
      destruct (Forall_head _ _ _ _ _ F') as [O _]. assert (P : mem_kind (tk_kind v) PUNCT = true) by hd_dec. destruct (O P) as (_ & _ & B). rewrite B.
      exact A. }
    inversion Hx as [f u P E1 E2|f k S E1 E2|n v Hn Hv E|n v Hn Hv E| | | | | ]; subst.
    - destruct P.
    - apply X; [eapply heads_in; [exact (statement_heads _ _ S)|sub]|exact F|]. inversion S as [f k B|f k C|f k N1 V]; subst.
      + destruct (block_heads _ _ B) as (o & kw & k' & E & Ho & _). assert (Hh : heads TAG_OPEN x) by (rewrite E; exact Ho). esteps.
        apply (a_statement dbg N IH InAttributes); [exact S|]. intros m. apply HQ'.
      + pose proof (comment_heads _ C) as Hh. esteps. apply (a_statement dbg N IH InAttributes); [exact S|]. intros m. apply HQ'.
      + now destruct N1.
    - rewrite <- app_assoc in *. destruct Hn as [u U Ht|c u Hc A Ht].
      + pose proof (attribute_regex1 u (Forall_head _ _ _ _ _ F) Ht U) as Hu. apply acc_look_raw. intros r0 D R L. destruct (raw_head _ _ _ D R) as (r' & ->).
        unfold l_attr_text. replace (l_at TK_COLON (u :: r')) with false by (symmetry; cbn [l_at]; hd_dec). rewrite (attribute_regex _ Ht). cbn [app]. esteps.
        apply a_value; [exact Hv|exact Ha|]. intros m'. apply HQ'.
      + apply acc_look_raw. intros r0 D R L. destruct (raw_head2 _ _ _ _ D L R A) as (r' & ->).
        unfold l_attr_text. replace (l_at TK_COLON (c :: u :: r')) with true by (symmetry; cbn [l_at]; hd_dec). cbn [nth_error].
        rewrite (attribute_regex _ Ht). cbn [app]. esteps. apply acc_bump_next2; [exact A|]. intros ts. esteps.
        apply a_value; [exact Hv|exact Ha|]. intros m'. apply HQ'.
    - rewrite <- app_assoc in *. pose proof (var_heads _ Hn) as Hh.
      assert (X' : heads OPENS n) by (eapply heads_in; [exact Hh|sub]).
      rewrite (app_assoc n v) in F |- *.
      apply X; [now apply heads_app|exact F|]. rewrite <- app_assoc. esteps.
      apply (a_var dbg N); [exact Hn|]. intros m'. apply a_value; [exact Hv|exact Ha|]. intros m''. apply HQ'.
  Qed.
  Lemma a_attributes : forall a g w (Q : unit -> list token -> Prop), content InAttributes a -> is [TK_GREATER_THAN; TK_SLASH_GREATER_THAN] g -> Q tt (g :: w) ->
    acc parse_attribute_list (a ++ g :: w) Q.
  Proof.
    intros a g w Q Ha Hg HQ. unfold parse_attribute_list. esteps.
    assert (Hr : ends InAttributes (g :: w)) by (cbn [ends]; apply heads_cons; eapply is_in; [exact Hg|sub]).
    apply (a_loop InAttributes); [exact Ha|..].
    - intros G. refine (disj _ _ _ (heads_is [TK_UNKNOWN] g w G) Hg _). sub.
    - intros t r' Q2 _ H. apply acc_look; [now apply insens_head|].
      replace (_ || _) with true; [exact H|]. symmetry. exact (kdec _ g (fun x => kind_eqb x TK_GREATER_THAN || kind_eqb x TK_SLASH_GREATER_THAN) true Hg ltac:(sub)).
    - intros u l Q2 Hl F H. apply acc_look; [now apply insens_head|].
      assert (Hu : is ATTRS u).
      { destruct (content_inv _ _ Hl) as [?|(x & l' & Ex & Hx & _)]; [discriminate|]. change (u :: l ++ g :: w) with ((u :: l) ++ g :: w) in F.
        rewrite Ex, <- app_assoc in F. pose proof (item_attrs _ _ F Hx) as G. destruct x as [|v x]; [destruct G|]. injection Ex as -> _. exact (heads_is _ _ _ G). }
      replace (_ || _) with false; [exact H|]. symmetry.
      exact (kdec _ u (fun x => kind_eqb x TK_GREATER_THAN || kind_eqb x TK_SLASH_GREATER_THAN) false Hu ltac:(sub)).
    - intros u l Q2 Hl K _ H. apply (a_call_child InAttributes); [exact Hl|exact K|exact Hr|exact H].
    - esteps. exact HQ.
  Qed.

  (** ** Elements *)

  Lemma end_tag_met : forall n s m w, is [TK_LESS_THAN_SLASH] s -> tk_kind m = tk_kind n -> tk_text m = tk_text n ->
    end_tag (tk_kind n) (tk_text n) (s :: m :: w) = true.
  Proof.
    intros n s m w Hs Hk Ht. unfold end_tag. rewrite (is1 _ _ Hs), Hk, Ht, !kind_eqb_refl. cbn [andb]. now apply text_eqb_eq.
  Qed.
  Lemma end_tag_not : forall S k w l, heads S l -> forallb (fun k => negb (kind_eqb k TK_LESS_THAN_SLASH)) S = true -> end_tag k w l = false.
  Proof.
    intros S k w [|t l] H E; [destruct H|]. unfold end_tag. destruct l; [reflexivity|]. rewrite forallb_forall in E. specialize (E _ H).
    apply negb_true_iff in E. now rewrite E.
  Qed.
  Lemma in_names : forall w l, existsb (text_eqb w) l = true <-> In w l.
  Proof.
    intros w l. rewrite existsb_exists. split.
    - intros (x & Hx & E). apply text_eqb_eq in E. now subst.
    - intros H. exists w. split; [exact H|]. now apply text_eqb_eq.
  Qed.
  Lemma not_names : forall w l, ~ In w l -> existsb (text_eqb w) l = false.
  Proof. intros w l H. apply not_true_is_false. now rewrite in_names. Qed.

  Lemma raw_inv : forall n l, raw_content n l -> l = [] \/
    (exists t l', l = t :: l' /\ plain InRaw t /\
      (is [TK_LESS_THAN_SLASH] t -> forall u l2, l' = u :: l2 -> ~ (tk_kind u = tk_kind n /\ tk_text u = tk_text n)) /\ raw_content n l') \/
    exists x l', l = x ++ l' /\ statement InRaw x /\ raw_content n l'.
  Proof. intros n l H. destruct H; eauto 10. Qed.

  Lemma a_raw : forall n b s m w (Q : bool -> list token -> Prop), is NAMES n -> raw_content n b -> is [TK_LESS_THAN_SLASH] s ->
    tk_kind m = tk_kind n -> tk_text m = tk_text n -> Q true (s :: m :: w) -> acc (parse_html_raw_text (tk_kind n) (tk_text n)) (b ++ s :: m :: w) Q.
  Proof.
    intros n b s m w Q Hn Hb Hs Hk Ht HQ. unfold parse_html_raw_text. esteps. eapply acc_conseq.
    - apply (acc_many dbg N bool _ _ (fun x k => x = false /\ exists b, raw_content n b /\ k = b ++ s :: m :: w) (fun x k => x = true /\ k = s :: m :: w)).
      + intros x (_ & b' & _ & E). destruct b'; discriminate.
      + intros x t k (-> & b' & Hb' & E) K. split; [reflexivity|]. destruct (raw_inv _ _ Hb') as [->|[(u & l' & -> & P & _ & Hl)|(y & l' & -> & S & Hl)]].
        * exfalso. injection E as -> _. refine (disj _ _ _ (kind_is1 _ _ K) Hs _). sub.
        * injection E as -> ->. eauto.
        * exfalso. pose proof (statement_heads _ _ S) as G. destruct y as [|u y]; [destruct G|]. injection E as -> _.
          refine (disj _ _ _ (kind_is1 _ _ K) (heads_is _ _ _ G) _). sub.
      + intros x t k (-> & b' & Hb' & E) K. rewrite E. apply a_early. destruct (raw_inv _ _ Hb') as [->|[(u & l' & -> & P & H & Hl)|(y & l' & -> & S & Hl)]]; cbn [app].
        * rewrite end_tag_met by assumption. cbn [fst snd]. auto.
        * replace (end_tag (tk_kind n) (tk_text n) (u :: l' ++ s :: m :: w)) with false.
          2:{ symmetry. unfold end_tag. destruct (l' ++ s :: m :: w) as [|v l2] eqn:El; [reflexivity|].
              destruct (kind_eqb (tk_kind u) TK_LESS_THAN_SLASH) eqn:Ku; [|reflexivity]. cbn [andb]. apply kind_eqb_eq in Ku.
              destruct l' as [|v' l'].
              - injection El as -> _. rewrite (is1 _ _ Hs). replace (kind_eqb TK_LESS_THAN_SLASH (tk_kind n)) with false; [reflexivity|].
                symmetry. exact (kdec NAMES n (fun x => kind_eqb TK_LESS_THAN_SLASH x) false Hn ltac:(sub)).
              - injection El as -> _. apply not_true_is_false. intros B. apply andb_true_iff in B as [B1 B2]. apply kind_eqb_eq in B1. apply text_eqb_eq in B2.
                apply (H (kind_is1 _ _ Ku) v l' eq_refl). split; [exact B1|now symmetry]. }
          rewrite no_tag_not by (intros G; apply (plain_opens _ _ P); eapply is_in; [exact G|sub]). cbn [fst snd]. split; [reflexivity|].
          apply acc_bind. apply (a_no_statement dbg N InRaw); [exact (plain_opens _ _ P)|]. esteps. left. cbn [List.length]. eauto with arith.
        * pose proof (statement_heads _ _ S) as G. rewrite <- app_assoc.
          rewrite (end_tag_not (TAG_OPEN ++ COMMENT_OPEN ++ VAR_OPEN)); [|now apply heads_app|sub].
          rewrite (statement_tag _ _ _ TERMINATION_KEYWORDS S ltac:(sub)). cbn [fst snd].
          destruct y as [|u y]; [destruct G|]. cbn [app]. split; [reflexivity|]. change (u :: y ++ l' ++ s :: m :: w) with ((u :: y) ++ l' ++ s :: m :: w).
          apply acc_bind. apply (a_statement dbg N IH InRaw); [exact S|]. intros m'. esteps. left. cbn [List.length]. rewrite (app_length y). split; [lia|]. eauto.
      + eauto.
    - intros x k [-> ->]. esteps. exact HQ.
  Qed.

  Lemma a_children : forall n b s m w (Q : bool -> list token -> Prop), content InBody b -> is [TK_LESS_THAN_SLASH] s ->
    tk_kind m = tk_kind n -> tk_text m = tk_text n -> Q true (s :: m :: w) ->
    acc (parse_many_st (early_end_tag (tk_kind n) (tk_text n)) (fun met => call_child PFAny ;; Ret met) false) (b ++ s :: m :: w) Q.
  Proof.
    intros n b s m w Q Hb Hs Hk Ht HQ. apply acc_ok. fold ok. intros F.
    assert (He : ends InBody (s :: m :: w)) by (cbn [ends]; right; apply heads_cons; eapply is_in; [exact Hs|sub]).
    eapply acc_conseq.
    - apply (acc_many dbg N bool _ _ (fun x k => x = false /\ exists b, content InBody b /\ k = b ++ s :: m :: w /\ Forall ok k) (fun x k => x = true /\ k = s :: m :: w)).
      + intros x (_ & b' & _ & E & _). destruct b'; discriminate.
      + intros x t k (-> & b' & Hb' & E & G) K. split; [reflexivity|]. destruct b' as [|u b'].
        * exfalso. injection E as -> _. refine (disj _ _ _ (kind_is1 _ _ K) Hs _). sub.
        * injection E as -> ->. exists b'. split; [eapply content_unknown; eassumption|]. split; [reflexivity|]. now inversion G.
      + intros x t k (-> & b' & Hb' & E & G) K. rewrite E in G |- *. apply a_early. destruct b' as [|u b']; cbn [app] in *.
        * rewrite end_tag_met by assumption. cbn [fst snd]. auto.
        * injection E as -> ->. assert (C : end_tag (tk_kind n) (tk_text n) (u :: b' ++ s :: m :: w) = false).
          { destruct (content_inv _ _ Hb') as [?|(x & l' & Ex & Hx & _)]; [discriminate|].
            change (u :: b' ++ s :: m :: w) with ((u :: b') ++ s :: m :: w) in *. rewrite Ex, <- app_assoc in *.
            apply (end_tag_not (minus all_kinds [TK_LESS_THAN_SLASH])); [apply heads_app; exact (item_no_end _ Hx)|sub]. }
          rewrite C, (content_tag _ _ _ _ TERMINATION_KEYWORDS Hb' ltac:(sub) G). cbn [fst snd]. split; [reflexivity|]. apply acc_bind.
          apply (a_call_child InBody); [exact Hb'|exact K|exact He|]. intros l2 H2 Hlen. apply acc_ok. fold ok. intros F2. apply acc_ret. left.
          split; [cbn [List.length]; rewrite !app_length; lia|]. eauto.
      + eauto.
    - intros x k [-> ->]. exact HQ.
  Qed.

  Lemma a_element_end : forall n s m c w q (Q : nat -> list token -> Prop), is [TK_LESS_THAN_SLASH] s -> tk_kind m = tk_kind n -> is [TK_GREATER_THAN] c ->
    (forall m, Q m w) -> acc (parse_html_ending_tag (tk_kind n) (tk_text n) true ;; complete q HTML_TAG) (s :: m :: c :: w) Q.
  Proof.
    intros n s m c w q Q Hs Hk Hc HQ. unfold parse_html_ending_tag. esteps.
    destruct (kind_eqb (tk_kind m) TK_TWIG_COMPONENT_NAME) eqn:K.
    - eapply acc_at; [cbn [l_at]; exact K|]. tidy. esteps. apply HQ.
    - eapply acc_at; [cbn [l_at]; exact K|]. tidy. esteps. eapply acc_at; [cbn [l_at]; rewrite Hk; apply kind_eqb_refl|]. tidy. esteps. apply HQ.
  Qed.

  Lemma a_element : forall x r (Q : nat -> list token -> Prop), item InBody x -> heads [TK_LESS_THAN] x -> (forall m, Q m r) -> acc parse_html_element (x ++ r) Q.
  Proof.
    intros x r Q H Hh HQ. apply acc_ok. fold ok. intros F.
    assert (X : forall o n a g w (P : nat -> list token -> Prop), is [TK_LESS_THAN] o -> tag_name n -> is NAMES n -> content InAttributes a ->
      is [TK_GREATER_THAN; TK_SLASH_GREATER_THAN] g ->
      (forall m, acc (
        if kind_eqb (tk_kind g) TK_SLASH_GREATER_THAN || existsb (text_eqb (lower n)) HTML_VOID_ELEMENTS then complete m HTML_TAG else
  body_m <- start ;;
  met <-
    (if existsb (text_eqb (lower n)) HTML_RAW_TEXT_ELEMENTS
     then parse_html_raw_text (tk_kind n) (tk_text n)
     else parse_many_st (early_end_tag (tk_kind n) (tk_text n))
            (fun met => call_child PFAny ;; Ret met) false) ;;
  complete body_m BODY ;;
  parse_html_ending_tag (tk_kind n) (tk_text n) met ;;
  complete m HTML_TAG) w P) -> acc parse_html_element (o :: n :: a ++ g :: w) P).
    { intros o n a g w P Ho Hn Hk Ha Hg HP. unfold parse_html_element. esteps. apply acc_peek. cbn [hd_error]. cbv zeta. cbn [hd_error]. esteps.
      assert (Y : forall (P2 : unit -> list token -> Prop), P2 tt (a ++ g :: w) -> acc (if kind_eqb (tk_kind n) TK_TWIG_COMPONENT_NAME then bump ;; Ret tt
   else if rfull HTML_TAG_NAME_REGEX (tk_text n) then bump_as TK_WORD ;; Ret tt
   else add_error "HTML Tag Name" ;; recover [TK_GREATER_THAN; TK_SLASH_GREATER_THAN; TK_LESS_THAN_SLASH; TK_WORD]) (n :: a ++ g :: w) P2).
      { intros P2 HP2. destruct (kind_eqb (tk_kind n) TK_TWIG_COMPONENT_NAME) eqn:K; [esteps; exact HP2|].
        rewrite tag_name_regex; [esteps; exact HP2|exact Hn|]. intros E. rewrite E in K. vm_compute in K. discriminate K. }
      apply Y. esteps. apply a_attributes; [exact Ha|exact Hg|]. esteps. fold (lower n).
      destruct (kind_eqb (tk_kind g) TK_SLASH_GREATER_THAN) eqn:K.
      - eapply acc_at; [cbn [l_at]; exact K|]. cbv iota. apply acc_bind, acc_bump, acc_ret, acc_bind, acc_complete. intros m3. exact (HP m).
      - eapply acc_at; [cbn [l_at]; exact K|]. tidy.
        assert (G : is [TK_GREATER_THAN] g). { destruct Hg as [G|[G|[]]]; [now left|]. rewrite <- G in K. vm_compute in K. discriminate K. }
        cbv iota. apply acc_bind. eapply acc_expect; [hd_dec|]. apply acc_ret, acc_bind, acc_complete. intros m3. exact (HP m). }
    inversion H as [f t P E1 E2|f l S E1 E2| | |o n a g b s m c Ho A Hn Ha Hg V1 V2 Hb Hs Hk Ht Hc E|o n a g b s m c Ho A Hn Ha Hg V1 V2 Hb Hs Hk Ht Hc E
      |o n a g Ho A Hn Ha Hg E|o i c Ho Hi Hc E|o d w c Ho Hd Hw Hc E]; subst.
    - exfalso. apply P. eapply is_in; [exact (heads_is _ _ _ Hh)|sub].
    - exfalso. pose proof (statement_heads _ _ S) as G. destruct x as [|u x]; [destruct G|]. refine (disj _ _ _ (heads_is _ _ _ Hh) (heads_is _ _ _ G) _). sub.
    - cbn [app] in F |- *. rewrite <- app_assoc. cbn [app].
      assert (Nn : is NAMES n) by (inversion F as [|? ? _ F2]; inversion F2; auto using tag_name_kind).
      apply X; [exact Ho|exact Hn|exact Nn|exact Ha|eapply is_in; [exact Hg|sub]|]. intros q.
      replace (kind_eqb (tk_kind g) TK_SLASH_GREATER_THAN) with false by (symmetry; hd_dec). rewrite (not_names _ HTML_VOID_ELEMENTS V1), (not_names _ HTML_RAW_TEXT_ELEMENTS V2). tidy. esteps.
      apply a_children; [exact Hb|exact Hs|exact Hk|exact Ht|]. apply acc_bind, acc_complete. intros m3. apply a_element_end; auto.
    - cbn [app] in F |- *. rewrite <- app_assoc. cbn [app].
      assert (Nn : is NAMES n) by (inversion F as [|? ? _ F2]; inversion F2; auto using tag_name_kind).
      apply X; [exact Ho|exact Hn|exact Nn|exact Ha|eapply is_in; [exact Hg|sub]|]. intros q.
      replace (kind_eqb (tk_kind g) TK_SLASH_GREATER_THAN) with false by (symmetry; hd_dec). rewrite (not_names _ HTML_VOID_ELEMENTS V1), (proj2 (in_names _ HTML_RAW_TEXT_ELEMENTS) V2). tidy. esteps.
      apply a_raw; [exact Nn|exact Hb|exact Hs|exact Hk|exact Ht|]. apply acc_bind, acc_complete. intros m3. apply a_element_end; auto.
    - cbn [app] in F |- *. rewrite <- app_assoc. cbn [app].
      assert (Nn : is NAMES n) by (inversion F as [|? ? _ F2]; inversion F2; auto using tag_name_kind).
      assert (G : is [TK_GREATER_THAN; TK_SLASH_GREATER_THAN] g) by (destruct Hg as [[G _]|G]; (eapply is_in; [exact G|sub])).
      apply X; [exact Ho|exact Hn|exact Nn|exact Ha|exact G|]. intros q.
      assert (E2 : kind_eqb (tk_kind g) TK_SLASH_GREATER_THAN || existsb (text_eqb (lower n)) HTML_VOID_ELEMENTS = true).
      { destruct Hg as [[G1 V]|G1].
        - rewrite (proj2 (in_names _ HTML_VOID_ELEMENTS) V). apply orb_true_r.
        - replace (kind_eqb (tk_kind g) TK_SLASH_GREATER_THAN) with true by (symmetry; hd_dec). reflexivity. }
      rewrite E2. esteps. apply HQ.
    - exfalso. refine (disj _ _ _ (heads_is _ _ _ Hh) Ho _). sub.
    - exfalso. refine (disj _ _ _ (heads_is _ _ _ Hh) Ho _). sub.
  Qed.

  Lemma a_any : forall t l r (Q : option nat -> list token -> Prop), content InBody (t :: l) -> tk_kind t <> TK_UNKNOWN -> ends InBody r ->
    (forall m l2, content InBody l2 -> length l2 <= length l -> Q (Some m) (l2 ++ r)) -> acc body_any (t :: l ++ r) Q.
  Proof.
    intros t l r Q H K Hr HQ. apply acc_ok. fold ok. intros F. destruct (content_inv _ _ H) as [?|(x & l' & Ex & Hx & Hl)]; [discriminate|].
    assert (Hlen : length l' <= length l).
    { change (t :: l ++ r) with ((t :: l) ++ r) in F. rewrite Ex, <- app_assoc in F. destruct (item_cons _ _ _ Hx F) as (v & x' & ->).
      injection Ex as _ ->. rewrite app_length. lia. }
    assert (HQ' : forall m, Q (Some m) (l' ++ r)) by auto. unfold body_any. apply acc_bind.
    assert (Z : (False \/ exists o n y, x = o :: n :: y /\ is [TK_LESS_THAN] o /\ tk_end o = tk_start n /\ tag_name n) ->
      acc (parse_any_twig PFAny) (t :: l ++ r) (fun a l0 => acc (match a with Some c => Ret (Some c) | None => parse_any_html end) l0 Q)).
    { intros [[]|(o & n & y & E & Ho & A & Hn)]. assert (Hh : heads [TK_LESS_THAN] x) by (rewrite E; exact Ho). change (t :: l ++ r) with ((t :: l) ++ r) in *.
      rewrite Ex, <- app_assoc in *. rewrite E in F |- *. cbn [app] in F |- *.
      assert (Nn : is NAMES n) by (inversion F as [|? ? _ F2]; inversion F2; auto using tag_name_kind).
      apply (a_no_statement dbg N InBody). { intros G. refine (disj _ _ _ Ho G _). sub. }
      unfold parse_any_html. apply acc_bind, acc_look_raw. intros r0 D R L. destruct (raw_head2 _ _ _ _ D L R A) as (r' & ->).
      assert (X : kind_eqb (tk_kind n) TK_WHITESPACE || kind_eqb (tk_kind n) TK_NUMBER || mem_kind (tk_kind n) GENERAL_RECOVERY_SET = false).
      { exact (kdec NAMES n (fun x => kind_eqb x TK_WHITESPACE || kind_eqb x TK_NUMBER || mem_kind x GENERAL_RECOVERY_SET) false Nn ltac:(sub)). }
      unfold l_less_than_non_word. cbn [nth_error]. rewrite X. replace (l_at TK_LESS_THAN (o :: n :: r')) with true by (symmetry; cbn [l_at]; hd_dec).
      tidy. apply acc_bind. change (o :: n :: y ++ l' ++ r) with ((o :: n :: y) ++ l' ++ r). rewrite <- E. apply a_element; [exact Hx|exact Hh|].
      intros m. esteps. apply HQ'. }
    inversion Hx as [f u P E1 E2|f k S E1 E2| | |o n a g b s m c Ho A Hn Ha Hg V1 V2 Hb Hs Hk Ht Hc E0 E|o n a g b s m c Ho A Hn Ha Hg V1 V2 Hb Hs Hk Ht Hc E0 E
      |o n a g Ho A Hn Ha Hg E0 E|o i c Ho Hi Hc E0 E|o d w c Ho Hd Hw Hc E0 E].
    - subst x f. injection Ex as -> ->. apply (a_no_statement dbg N InBody); [exact (plain_opens _ _ P)|]. unfold parse_any_html.
      cbn [plain] in P. pose proof (not_is _ _ P) as G. apply acc_bind, acc_look_raw. intros r0 D R L. destruct (raw_head _ _ _ D R) as (r' & ->).
      replace (l_at TK_LESS_THAN (u :: r')) with false by (symmetry; cbn [l_at]; hd_dec). tidy. esteps.
      apply a_text; [exact P|exact Hl|exact Hr|exact K|exact HQ].
    - change (t :: l ++ r) with ((t :: l) ++ r) in *. rewrite Ex, <- app_assoc. apply (a_statement dbg N IH InBody x); [exact S|]. intros m. esteps. apply HQ'.
    - apply Z. rewrite <- E. right. eexists. eexists. eexists. split; [reflexivity|auto].
    - apply Z. rewrite <- E. right. eexists. eexists. eexists. split; [reflexivity|auto].
    - apply Z. rewrite <- E. right. eexists. eexists. eexists. split; [reflexivity|auto].
    - subst x. cbn [app] in Ex. change (t :: l ++ r) with ((t :: l) ++ r). rewrite Ex. cbn [app]. rewrite <- !app_assoc. cbn [app].
      apply (a_no_statement dbg N InBody). { intros G. refine (disj _ _ _ Ho G _). sub. }
      unfold parse_any_html. apply acc_bind, acc_look_raw. intros r0 D R L. destruct (raw_head _ _ _ D R) as (r' & ->).
      replace (l_at TK_LESS_THAN (o :: r')) with false by (symmetry; cbn [l_at]; hd_dec). tidy. esteps.
      apply a_html_comment; [exact Ho|exact Hi|exact Hc|]. intros m. esteps. apply HQ'.
    - subst x. cbn [app] in Ex. change (t :: l ++ r) with ((t :: l) ++ r). rewrite Ex. cbn [app].
      apply (a_no_statement dbg N InBody). { intros G. refine (disj _ _ _ Ho G _). sub. }
      unfold parse_any_html. apply acc_bind, acc_look_raw. intros r0 D R L. destruct (raw_head _ _ _ D R) as (r' & ->).
      replace (l_at TK_LESS_THAN (o :: r')) with false by (symmetry; cbn [l_at]; hd_dec). tidy. esteps.
      apply a_doctype; [exact Ho|exact Hd|exact Hw|exact Hc|]. intros m. esteps. apply HQ'.
  Qed.

  Lemma a_child : Children dbg N.
  Proof.
    constructor. intros f t l r Hl K Hr. destruct f; cbn [pf body].
    - apply a_any; [exact Hl|exact K|exact Hr|]. intros m l2 H2 Hlen. split; [discriminate|]. eauto.
    - apply (a_raw_inner (t :: l) r); [exact Hl|exact Hr|]. intros o. split; [discriminate|]. exists []. split; [constructor|]. split; [reflexivity|apply Nat.le_0_l].
    - unfold inner_double_quote_parser. apply acc_bind. apply (a_quoted InDouble TK_DOUBLE_QUOTES (t :: l) r); [now left|exact Hl|exact Hr|]. apply acc_ret.
      split; [discriminate|]. exists []. split; [constructor|]. split; [reflexivity|apply Nat.le_0_l].
    - unfold inner_single_quote_parser. apply acc_bind. apply (a_quoted InSingle TK_SINGLE_QUOTES (t :: l) r); [now right|exact Hl|exact Hr|]. apply acc_ret.
      split; [discriminate|]. exists []. split; [constructor|]. split; [reflexivity|apply Nat.le_0_l].
    - apply a_attr; [exact Hl|exact Hr|]. intros o l2 H2 Hlen. split; [discriminate|]. eauto.
  Qed.
End Html.

Lemma children_ok : forall dbg N, Children dbg N.
Proof.
  intros dbg N. induction N as [N IH] using (well_founded_induction lt_wf). apply a_child. exact IH.
Qed.

Lemma a_root : forall dbg N l, template l -> acc dbg N root l (fun _ k => k = []).
Proof.
  intros dbg N l Hl. unfold root. esteps. apply acc_ok. fold ok. intros F. eapply acc_conseq.
  - apply (acc_many_u dbg N _ _ (fun k => content InBody k /\ Forall ok k) (fun k => k = [])); [reflexivity| | |auto].
    + intros t k [Hk G] K. split; [|now inversion G]. apply (content_unknown InBody t k []); [exact Hk|now rewrite app_nil_r|exact K].
    + intros t k [Hk G] K. apply acc_ret. split; [reflexivity|]. apply acc_bind.
      rewrite <- (app_nil_r k). apply (a_call dbg N (fun N' _ => children_ok dbg N') InBody); [exact Hk|exact K|now left|].
      intros o l2 Ho H2 Hlen. rewrite !app_nil_r. destruct o as [m'|]; [|exfalso; apply (Ho eq_refl); reflexivity]. apply acc_ok. fold ok. intros F2. tidy. esteps. left.
      split; [cbn [List.length]; lia|auto].
  - intros [] k ->. esteps. reflexivity.
Qed.
