(** Derived rules of AccLogic.v for the methods of the parser, and the tactic that applies them. *)
From Coq Require Import NArith String Bool Arith Lia List.
Import ListNotations.
From Verif Require Import Text Kind Regex Lexer LexerProofs ParserApi GrammarExpr GrammarTags GrammarHtml Machine TreeMachine Simulation.
From Verif Require Import AccLogic AccSpec.
Local Notation length := List.length (only parsing).
Local Open Scope list_scope.

(** * Kinds of tokens *)

Lemma all_in : forall k, In k all_kinds.
Proof. intros k. eapply nth_error_In, kind_idx_nth. Qed.

(** A test on kinds that gives the same answer on all kinds of [S]. *)
Definition const (S : list kind) (f : kind -> bool) (v : bool) : bool := forallb (fun k => Bool.eqb (f k) v) S.
Lemma kdec : forall S t f v, is S t -> const S f v = true -> f (tk_kind t) = v.
Proof.
  intros S t f v H C. unfold const in C. rewrite forallb_forall in C. apply C in H. now apply eqb_prop in H.
Qed.

(** The first token is one of [S]. *)
Definition heads (S : list kind) (l : list token) : Prop := match l with t :: _ => is S t | [] => False end.
Lemma heads_app : forall S l r, heads S l -> heads S (l ++ r).
Proof. intros S [|t l] r H; [destruct H|exact H]. Qed.
Lemma heads_cons : forall S t l, is S t -> heads S (t :: l).
Proof. intros S t l H. exact H. Qed.
Lemma heads_ex : forall S l, heads S l -> exists t l', l = t :: l' /\ is S t.
Proof. intros S [|t l] H; [destruct H|eauto]. Qed.
Lemma heads_sub : forall S S' l, heads S l -> (forall k, In k S -> In k S') -> heads S' l.
Proof. intros S S' [|t l] H I; [destruct H|]. apply I. exact H. Qed.

Lemma at_dec : forall S l k v, heads S l -> const S (fun x => kind_eqb x k) v = true -> l_at k l = v.
Proof. intros S [|t l] k v H C; [destruct H|]. exact (kdec S t _ v H C). Qed.
Lemma at_set_dec : forall S l ks v, heads S l -> const S (fun x => mem_kind x ks) v = true -> l_at_set ks l = v.
Proof. intros S [|t l] k v H C; [destruct H|]. exact (kdec S t _ v H C). Qed.
Lemma at_end_dec : forall S l, heads S l -> l_at_end l = false.
Proof. intros S [|t l] H; [destruct H|reflexivity]. Qed.

Lemma is_mem : forall S t, is S t -> mem_kind (tk_kind t) S = true.
Proof. intros S t H. unfold mem_kind. apply existsb_exists. exists (tk_kind t). split; [exact H|]. now apply kind_eqb_eq. Qed.
Lemma mem_is : forall S t, mem_kind (tk_kind t) S = true -> is S t.
Proof. intros S t H. unfold mem_kind in H. apply existsb_exists in H as (k & H & E). apply kind_eqb_eq in E. unfold is. now rewrite E. Qed.
Lemma nmem_is : forall S t, ~ is S t -> mem_kind (tk_kind t) S = false.
Proof. intros S t H. destruct (mem_kind (tk_kind t) S) eqn:E; [|reflexivity]. destruct H. now apply mem_is. Qed.
Lemma is1 : forall k t, is [k] t -> tk_kind t = k.
Proof. intros k t [H|[]]. now symmetry. Qed.
Lemma kind_is1 : forall k t, tk_kind t = k -> is [k] t.
Proof. intros k t H. left. now symmetry. Qed.

(** The kinds outside of [S]. *)
Definition minus (l S : list kind) : list kind := filter (fun k => negb (mem_kind k S)) l.
Lemma is_minus : forall l S t, is l t -> ~ is S t -> is (minus l S) t.
Proof. intros l S t H N. apply filter_In. split; [exact H|]. now rewrite nmem_is. Qed.
Lemma is_all : forall t, is all_kinds t.
Proof. intros t. apply all_in. Qed.
Lemma not_is : forall S t, ~ is S t -> is (minus all_kinds S) t.
Proof. intros S t. apply is_minus, is_all. Qed.

(** * Names *)

Lemma rfull_spec : forall s r, rfull r s = true <-> rmatch r s.
Proof.
  induction s as [|c s IH]; intros r; cbn [rfull]; [apply nullable_spec|]. rewrite IH. apply deriv_spec.
Qed.
Lemma star_all : forall cl w, Forall (fun c => in_class cl c = true) w -> rmatch (RStar (RClass cl)) w.
Proof.
  intros cl w H. induction H as [|c w Hc _ IH]; [constructor|]. apply (MStarS _ [c] w); [now constructor|exact IH].
Qed.

Ltac classes := unfold in_class, in_range; cbn [existsb fst snd]; rewrite ?orb_true_iff, ?andb_true_iff, ?N.leb_le; lia.

Lemma named_regex : forall t, named t -> rfull TWIG_NAME_REGEX (tk_text t) = true.
Proof.
  intros t (_ & c & w & -> & Hc & Hw). apply rfull_spec. apply (MSeq _ _ [c] w).
  - constructor. unfold name_start, letter in Hc. classes.
  - apply star_all. eapply Forall_impl; [|exact Hw]. intros d Hd. unfold name_start, letter, digit in Hd. classes.
Qed.

Lemma tag_name_regex : forall t, tag_name t -> tk_kind t <> TK_TWIG_COMPONENT_NAME -> rfull HTML_TAG_NAME_REGEX (tk_text t) = true.
Proof.
  intros t [H|(_ & c & w & -> & Hc & Hw)] N; [contradiction|]. apply rfull_spec. apply (MSeq _ _ [c] w).
  - constructor. unfold cl_letter, letter in *. classes.
  - apply star_all. eapply Forall_impl; [|exact Hw]. intros d Hd. unfold letter, digit in Hd. classes.
Qed.

Lemma attribute_regex : forall s, attribute_text s -> rfull HTML_ATTRIBUTE_NAME_REGEX s = true.
Proof.
  intros s (c & w & Hw & Hc & H). apply rfull_spec. unfold HTML_ATTRIBUTE_NAME_REGEX.
  assert (W : rmatch (RStar (RClass cl_word)) w).
  { apply star_all. eapply Forall_impl; [|exact Hw]. intros d Hd. unfold word_char, letter, digit, cl_word in *. classes. }
  assert (C : in_class cl_letter c = true) by (unfold letter, cl_letter in *; classes).
  destruct H as [->|(d & Hd & ->)].
  - apply (MSeq _ _ [c] w); [|exact W]. now apply MAltL, MClass.
  - apply (MSeq _ _ [d; c] w); [|exact W]. apply MAltR, (MSeq _ _ [d] [c]); constructor; [|exact C].
    cbn [In] in Hd. destruct Hd as [<-|[<-|[<-|[<-|[<-|[]]]]]]; reflexivity.
Qed.

(** Kinds a name can have. *)
Definition NAMES : list kind := minus all_kinds (TK_UNKNOWN :: PUNCT).
Lemma named_kind : forall t, tok_ok t -> named t -> is NAMES t.
Proof.
  intros t O N. apply not_is. intros [H|H].
  - destruct N as [N _]. now apply N.
  - apply is_mem in H. destruct (O H) as (H1 & _). now rewrite named_regex in H1.
Qed.
Definition VARIABLES : list kind := minus NAMES (BINARY ++ UNARY ++ TWO_WORD_TESTS ++ [TK_NULL; TK_TRUE; TK_FALSE]).
Lemma variable_kind : forall t, tok_ok t -> variable t -> is VARIABLES t.
Proof. intros t O [N H]. apply is_minus; [now apply named_kind|exact H]. Qed.

(** * Look-ahead *)

Lemma drop_fix : forall t r, drop_trivia (t :: r) = t :: r -> is_trivia (tk_kind t) = false.
Proof.
  intros t r D. cbn [drop_trivia] in D. destruct (is_trivia (tk_kind t)) eqn:K; [|reflexivity]. exfalso.
  destruct (drop_split r) as (p & E). apply (f_equal (@List.length token)) in D. apply (f_equal (@List.length token)) in E.
  rewrite app_length in E. cbn in D. lia.
Qed.
Lemma nontriv_cons : forall t r, drop_trivia (t :: r) = t :: r -> nontriv (t :: r) = t :: nontriv r.
Proof. intros t r D. cbn [nontriv filter]. now rewrite (drop_fix _ _ D). Qed.
Lemma nontriv_idem : forall r, nontriv (nontriv r) = nontriv r.
Proof.
  induction r as [|t r IH]; [reflexivity|]. cbn [nontriv filter]. destruct (negb _) eqn:K; [|exact IH].
  cbn [nontriv filter]. rewrite K. f_equal. exact IH.
Qed.

Lemma insens_head : forall (B : Set) (f : list token -> B), (forall t r r', f (t :: r) = f (t :: r')) -> insens f.
Proof. intros B f H [|t r] D; [reflexivity|]. rewrite (nontriv_cons _ _ D). apply H. Qed.

Section Rules.
  Context (dbg : bool) (N : nat).
  Local Notation acc := (acc dbg N).

  (** Look-ahead [f] that amounts to [g] on the tokens without white space. *)
  Lemma acc_lookg : forall (B : Set) (f g : list token -> B) l (Q : B -> list token -> Prop),
    (forall r, drop_trivia r = r -> f r = g (nontriv r)) -> Q (g l) l -> acc (look f) l Q.
  Proof. intros B f g l Q I H. apply acc_look_raw. intros r D R _. rewrite I, R by exact D. exact H. Qed.

  Lemma acc_at : forall k l v (Q : bool -> list token -> Prop), l_at k l = v -> Q v l -> acc (at_ k) l Q.
  Proof. intros k l v Q <- H. apply acc_look; [|exact H]. now apply insens_head. Qed.
  Lemma acc_at_set : forall ks l v (Q : bool -> list token -> Prop), l_at_set ks l = v -> Q v l -> acc (at_set ks) l Q.
  Proof. intros k l v Q <- H. apply acc_look; [|exact H]. now apply insens_head. Qed.
  Lemma acc_at_end : forall l v (Q : bool -> list token -> Prop), l_at_end l = v -> Q v l -> acc at_end l Q.
  Proof. intros l v Q <- H. apply acc_look; [|exact H]. now apply insens_head. Qed.
  Lemma acc_peek : forall l (Q : option token -> list token -> Prop), Q (hd_error l) l -> acc peek_token l Q.
  Proof. intros l Q H. apply acc_look; [|exact H]. now apply insens_head. Qed.
  Lemma acc_kind : forall l (Q : option kind -> list token -> Prop), Q (l_kind l) l -> acc (look l_kind) l Q.
  Proof. intros l Q H. apply acc_look; [|exact H]. now apply insens_head. Qed.

  (** The next two tokens. *)
  Definition two (a b : kind) (l : list token) : bool :=
    match l with t :: u :: _ => kind_eqb (tk_kind t) a && kind_eqb (tk_kind u) b | _ => false end.
  Lemma acc_at_following : forall a b l v (Q : bool -> list token -> Prop), two a b l = v -> Q v l -> acc (at_following [a; b]) l Q.
  Proof.
    intros a b l v Q <- H. apply (acc_lookg _ _ (two a b)); [|exact H]. intros [|t r] D; [reflexivity|].
    unfold l_following, l_following_content, two. rewrite (nontriv_cons _ _ D). cbn [map l_follow].
    destruct (kind_eqb (tk_kind t) a); cbn [andb].
    - destruct (nontriv r) as [|u r']; [reflexivity|]. destruct (kind_eqb (tk_kind u) b); [destruct r'; reflexivity|reflexivity].
    - destruct (nontriv r); reflexivity.
  Qed.

  Definition tag_is (kws : list kind) (l : list token) : bool :=
    match l with t :: u :: _ => mem_kind (tk_kind t) TWIG_BLOCK_OPEN_SET && mem_kind (tk_kind u) kws | _ => false end.
  Lemma tag_is_open : forall kws r, drop_trivia r = r ->
    (l_at_set TWIG_BLOCK_OPEN_SET r && match l_next_kind r with Some k => mem_kind k kws | None => false end) = tag_is kws (nontriv r).
  Proof.
    intros kws [|t r] D; [reflexivity|]. rewrite (nontriv_cons _ _ D). cbn [l_at_set l_next_kind tag_is].
    destruct (nontriv r) as [|u r']; cbn [l_kind]; [apply andb_false_r|reflexivity].
  Qed.
  Lemma acc_at_twig_tag : forall k l v (Q : bool -> list token -> Prop), tag_is [k] l = v -> Q v l -> acc (at_twig_tag k) l Q.
  Proof.
    intros k l v Q <- H. apply (acc_lookg _ _ (tag_is [k])); [|exact H]. intros r D. rewrite <- tag_is_open by exact D.
    unfold l_twig_tag. destruct (l_next_kind r); [|reflexivity]. cbn [mem_kind existsb]. now rewrite orb_false_r.
  Qed.
  Lemma acc_at_termination : forall l v (Q : bool -> list token -> Prop), tag_is TERMINATION_KEYWORDS l = v -> Q v l -> acc at_twig_termination_tag l Q.
  Proof. intros l v Q <- H. apply (acc_lookg _ _ (tag_is TERMINATION_KEYWORDS)); [|exact H]. intros r D. now apply tag_is_open. Qed.

  (** ** Consuming tokens *)

  Lemma acc_bump : forall t l (Q : token -> list token -> Prop), Q (mkTok (tk_kind t) (tk_text t) (tk_start t) (tk_end t)) l -> acc bump (t :: l) Q.
  Proof. intros t l Q H. apply acc_bump_gen. exact H. Qed.
  Lemma acc_bump_as : forall k t l (Q : token -> list token -> Prop), Q (mkTok k (tk_text t) (tk_start t) (tk_end t)) l -> acc (bump_as k) (t :: l) Q.
  Proof. intros k t l Q H. apply acc_bump_gen. exact H. Qed.
  Lemma acc_bump_site : forall s t l (Q : token -> list token -> Prop), Q (mkTok (tk_kind t) (tk_text t) (tk_start t) (tk_end t)) l -> acc (bump_site s) (t :: l) Q.
  Proof. intros s t l Q H. apply acc_bump_gen. exact H. Qed.

  Lemma acc_expect : forall k set t l (Q : option token -> list token -> Prop), kind_eqb (tk_kind t) k = true ->
    Q (Some (mkTok (tk_kind t) (tk_text t) (tk_start t) (tk_end t))) l -> acc (expect k set) (t :: l) Q.
  Proof.
    intros k set t l Q E H. unfold expect. apply acc_bind. eapply acc_at; [cbn [l_at]; exact E|]. cbv beta iota.
    apply acc_bind, acc_bump, acc_ret, H.
  Qed.
  Lemma acc_expect_any : forall ks set t l (Q : option token -> list token -> Prop), mem_kind (tk_kind t) ks = true ->
    Q (Some (mkTok (tk_kind t) (tk_text t) (tk_start t) (tk_end t))) l -> acc (expect_any ks set) (t :: l) Q.
  Proof.
    intros k set t l Q E H. unfold expect_any. apply acc_bind. eapply acc_at_set; [cbn [l_at_set]; exact E|]. cbv beta iota.
    apply acc_bind, acc_bump, acc_ret, H.
  Qed.

  Lemma acc_ok : forall (A : Set) (p : prog A) l Q, (Forall (fun t => tok_ok t /\ is_trivia (tk_kind t) = false) l -> acc p l Q) -> acc p l Q.
  Proof.
    intros A p l Q H n s Ln G. apply (H); [|exact Ln|exact G]. destruct G as (<- & [_ F] & _). apply Forall_forall.
    intros t Ht. unfold nontriv in Ht. apply filter_In in Ht as [Ht K]. split; [now apply (proj1 (Forall_forall _ _) F)|].
    now destruct (is_trivia _).
  Qed.
  Lemma acc_debug_assert : forall f l (Q : unit -> list token -> Prop), insens f -> f l = true -> Q tt l -> acc (debug_assert f) l Q.
  Proof. intros f l Q. apply acc_debug. Qed.
  Lemma acc_debug_at : forall k l (Q : unit -> list token -> Prop), l_at k l = true -> Q tt l -> acc (debug_assert (l_at k)) l Q.
  Proof. intros k l Q. apply acc_debug_assert. now apply insens_head. Qed.
  Lemma acc_debug_at_set : forall k l (Q : unit -> list token -> Prop), l_at_set k l = true -> Q tt l -> acc (debug_assert (l_at_set k)) l Q.
  Proof. intros k l Q. apply acc_debug_assert. now apply insens_head. Qed.
  Lemma acc_debug_site_at : forall s k l (Q : unit -> list token -> Prop), l_at k l = true -> Q tt l -> acc (debug_assert_site s (l_at k)) l Q.
  Proof. intros s k l Q. apply acc_debug. now apply insens_head. Qed.
End Rules.

(** * The tactics *)

(** [l_at k l = ?v] and the like, from what is known about the first token of [l]. *)
Ltac decide_with H S f lem :=
  let v := eval vm_compute in (forallb f S) in
  refine (lem S _ _ v H _); vm_compute; reflexivity.
Ltac head_of l k :=
  lazymatch l with
  | ?t :: ?r => match goal with H : is ?S t |- _ => k S (heads_cons S t r H) end
  | ?x ++ ?r => match goal with H : heads ?S x |- _ => k S (heads_app S x r H) end
  | ?x => match goal with H : heads ?S x |- _ => k S H end
  end.
Ltac hd_dec :=
  lazymatch goal with
  | |- l_at ?k ?l = _ => head_of l ltac:(fun S H => let v := eval vm_compute in (forallb (fun x => kind_eqb x k) S) in
      refine (at_dec S l k v H _); vm_compute; reflexivity)
  | |- l_at_set ?k ?l = _ => head_of l ltac:(fun S H => let v := eval vm_compute in (forallb (fun x => mem_kind x k) S) in
      refine (at_set_dec S l k v H _); vm_compute; reflexivity)
  | |- l_at_end ?l = _ => head_of l ltac:(fun S H => exact (at_end_dec S l H))
  | |- kind_eqb (tk_kind ?t) ?k = _ => match goal with H : is ?S t |- _ => let v := eval vm_compute in (forallb (fun x => kind_eqb x k) S) in
      refine (kdec S t (fun x => kind_eqb x k) v H _); vm_compute; reflexivity end
  | |- mem_kind (tk_kind ?t) ?k = _ => match goal with H : is ?S t |- _ => let v := eval vm_compute in (forallb (fun x => mem_kind x k) S) in
      refine (kdec S t (fun x => mem_kind x k) v H _); vm_compute; reflexivity end
  end.

Ltac tidy := cbv beta iota; cbn [when is_none is_some negb andb orb fst snd option_map];
  rewrite <- ?app_assoc; cbn [app]; rewrite ?app_nil_r.

Ltac astep :=
  lazymatch goal with
  | |- acc _ _ (bind _ _) _ _ => apply acc_bind
  | |- acc _ _ (Ret _) _ _ => apply acc_ret; tidy
  | |- acc _ _ start _ _ => apply acc_start; let m := fresh "m" in intros m; tidy
  | |- acc _ _ (complete _ _) _ _ => apply acc_complete; let m := fresh "m" in intros m; tidy
  | |- acc _ _ (precede _) _ _ => apply acc_precede; let m := fresh "m" in intros m; tidy
  | |- acc _ _ explicitly_consume_trivia _ _ => apply acc_trivia; tidy
  | |- acc _ _ bump (_ :: _) _ => apply acc_bump; tidy
  | |- acc _ _ (bump_as _) (_ :: _) _ => apply acc_bump_as; tidy
  | |- acc _ _ (bump_site _) (_ :: _) _ => apply acc_bump_site; tidy
  | |- acc _ _ (at_ _) _ _ => eapply acc_at; [hd_dec|]; tidy
  | |- acc _ _ (at_set _) _ _ => eapply acc_at_set; [hd_dec|]; tidy
  | |- acc _ _ at_twig_block_close _ _ => unfold at_twig_block_close
  | |- acc _ _ at_twig_block_open _ _ => unfold at_twig_block_open
  | |- acc _ _ at_twig_var_open _ _ => unfold at_twig_var_open
  | |- acc _ _ at_twig_comment_open _ _ => unfold at_twig_comment_open
  | |- acc _ _ at_end _ _ => eapply acc_at_end; [hd_dec|]; tidy
  | |- acc _ _ (expect _ _) (_ :: _) _ => eapply acc_expect; [hd_dec|]; tidy
  | |- acc _ _ (expect_any _ _) (_ :: _) _ => eapply acc_expect_any; [hd_dec|]; tidy
  | |- acc _ _ (debug_assert (l_at _)) _ _ => apply acc_debug_at; [hd_dec|]; tidy
  | |- acc _ _ (debug_assert (l_at_set _)) _ _ => apply acc_debug_at_set; [hd_dec|]; tidy
  | |- acc _ _ (debug_assert_site _ (l_at _)) _ _ => apply acc_debug_site_at; [hd_dec|]; tidy
  | |- acc _ _ (opt_bump _) _ _ => unfold opt_bump
  | |- acc _ _ (when _ _) _ _ => unfold when; tidy
  end.
Ltac asteps := repeat astep.
