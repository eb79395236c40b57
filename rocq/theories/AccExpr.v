(** The parser accepts the expressions of AccSpec.v. *)
From Coq Require Import NArith String Bool Arith Lia List.
Import ListNotations.
From Verif Require Import Text Kind Regex Lexer LexerProofs ParserApi GrammarExpr GrammarTags GrammarHtml Machine TreeMachine Simulation.
From Verif Require Import AccLogic AccSpec AccRules.
Local Notation length := List.length (only parsing).
Local Open Scope list_scope.
Local Open Scope prog_scope.

(** * What follows an expression *)

(** Tokens that do not continue an operand. *)
Definition PSTOP : list kind :=
  minus all_kinds [TK_DOT; TK_OPEN_SQUARE; TK_SINGLE_PIPE; TK_OPEN_PARENTHESIS; TK_EQUAL_GREATER_THAN; TK_UNKNOWN].
(** Tokens that do not continue an expression. *)
Definition ESTOP (b : bool) : list kind :=
  minus PSTOP (BINARY ++ TK_QUESTION_MARK :: if b then [] else [TK_COLON]).

Definition stops (S : list kind) (r : list token) : Prop := r = [] \/ heads S r.
Definition estop (b : bool) : list token -> Prop := stops (ESTOP b).

Lemma heads_stops : forall S r, heads S r -> stops S r.
Proof. intros S r H. now right. Qed.
Lemma stops_sub : forall S S' r, stops S r -> forallb (fun k => mem_kind k S') S = true -> stops S' r.
Proof.
  intros S S' r [H|H] F; [now left|right]. destruct r as [|t r]; [destruct H|]. apply mem_is.
  rewrite forallb_forall in F. now apply F.
Qed.
Lemma heads_in : forall S S' r, heads S r -> forallb (fun k => mem_kind k S') S = true -> heads S' r.
Proof. intros S S' r H F. destruct (stops_sub S S' r (heads_stops _ _ H) F) as [->|G]; [destruct H|exact G]. Qed.
Lemma is_in : forall S S' t, is S t -> forallb (fun k => mem_kind k S') S = true -> is S' t.
Proof. intros S S' t H F. exact (heads_in S S' [t] H F). Qed.
Lemma disj : forall S S' t, is S t -> is S' t -> forallb (fun k => negb (mem_kind k S')) S = true -> False.
Proof.
  intros S S' t H H' E. rewrite forallb_forall in E. specialize (E _ H). apply is_mem in H'. now rewrite H' in E.
Qed.
Lemma heads_is : forall S t l, heads S (t :: l) -> is S t.
Proof. intros S t l H. exact H. Qed.
Lemma at_stop : forall S l k, stops S l -> const S (fun x => kind_eqb x k) false = true -> l_at k l = false.
Proof. intros S l k [->|H] C; [reflexivity|]. exact (at_dec _ _ _ _ H C). Qed.
Lemma at_set_stop : forall S l k, stops S l -> const S (fun x => mem_kind x k) false = true -> l_at_set k l = false.
Proof. intros S l k [->|H] C; [reflexivity|]. exact (at_set_dec _ _ _ _ H C). Qed.

Ltac stop_dec :=
  lazymatch goal with
  | |- l_at ?k ?l = _ => match goal with H : stops ?S l |- _ => refine (at_stop S l k H _); vm_compute; reflexivity end
  | |- l_at_set ?k ?l = _ => match goal with H : stops ?S l |- _ => refine (at_set_stop S l k H _); vm_compute; reflexivity end
  end.
Ltac dec := first [hd_dec | stop_dec].
Ltac estep :=
  lazymatch goal with
  | |- acc _ _ (at_ _) _ _ => eapply acc_at; [dec|]; tidy
  | |- acc _ _ (at_set _) _ _ => eapply acc_at_set; [dec|]; tidy
  | _ => astep
  end.
Ltac esteps := repeat estep.
Ltac sub := vm_compute; reflexivity.

Lemma estop_false : forall b r, estop false r -> estop b r.
Proof. intros b r H. eapply stops_sub; [exact H|]. destruct b; sub. Qed.
Lemma estop_pstop : forall b r, estop b r -> stops PSTOP r.
Proof. intros b r H. eapply stops_sub; [exact H|]. destruct b; sub. Qed.

Definition POSTFIX : list kind := [TK_DOT; TK_OPEN_SQUARE; TK_SINGLE_PIPE].
Lemma filter_heads : forall l, filter_call l -> heads [TK_SINGLE_PIPE] l.
Proof. intros l H. destruct H; assumption. Qed.
Lemma postfix_heads : forall f, postfix f -> f = [] \/ heads POSTFIX f.
Proof.
  intros f H. destruct H as [|d t f H _ _|d t l f H _ _ _|o b x c f H _ _ _|o x m b y c f H _ _ _ _ _|o m b y c f H _ _ _ _|o x m c f H _ _ _ _|l f H _];
    [now left|..]; right; try (eapply is_in; [exact H|sub]). apply heads_app. eapply heads_in; [exact (filter_heads _ H)|sub].
Qed.
Lemma cond_heads : forall b q, cond b q -> b = true /\ q = [] \/ heads [TK_QUESTION_MARK] q.
Proof. intros b q H. destruct H; auto; right; assumption. Qed.
Lemma ops_heads : forall p, ops p -> p = [] \/ heads BINARY p.
Proof. intros p H. destruct H as [|o a p H _ _|o s t a p H _ _ _ _]; [now left|right..]; (eapply is_in; [exact H|sub]). Qed.

Lemma cond_stop : forall b q r, cond b q -> estop b r -> stops (TK_QUESTION_MARK :: ESTOP true) (q ++ r).
Proof.
  intros b q r Hq Hr. destruct (cond_heads _ _ Hq) as [[-> ->]|H].
  - eapply stops_sub; [exact Hr|sub].
  - right. apply heads_app. eapply heads_in; [exact H|sub].
Qed.
Lemma ops_stop : forall p b q r, ops p -> cond b q -> estop b r -> stops PSTOP (p ++ q ++ r).
Proof.
  intros p b q r Hp Hq Hr. destruct (ops_heads _ Hp) as [->|H].
  - eapply stops_sub; [exact (cond_stop _ _ _ Hq Hr)|sub].
  - right. apply heads_app. eapply heads_in; [exact H|sub].
Qed.

(** What an operand or an expression starts with. *)
Definition EXPRS : list kind :=
  minus all_kinds (TK_UNKNOWN :: minus PUNCT ([TK_OPEN_PARENTHESIS; TK_OPEN_SQUARE; TK_OPEN_CURLY; TK_NUMBER] ++ QUOTES ++ UNARY)).

Lemma Forall_head : forall (A : Type) (P : A -> Prop) x l r, Forall P ((x :: l) ++ r) -> P x.
Proof. intros A P x l r H. now inversion H. Qed.

Definition ok (t : token) : Prop := tok_ok t /\ is_trivia (tk_kind t) = false.

Lemma str_heads : forall i l, str i l -> heads QUOTES l.
Proof. intros i l H. destruct H; (eapply is_in; [eassumption|sub]). Qed.
Lemma hash_heads : forall l, hash l -> heads [TK_OPEN_CURLY] l.
Proof. intros l H. destruct H. assumption. Qed.
Lemma call_heads : forall l, call l -> heads [TK_OPEN_PARENTHESIS] l.
Proof. intros l H. destruct H. assumption. Qed.
Lemma variable_exprs : forall t, ok t -> variable t -> is EXPRS t.
Proof. intros t [O _] H. eapply is_in; [exact (variable_kind _ O H)|sub]. Qed.
Lemma primary_heads : forall m r, Forall ok (m ++ r) -> primary m -> heads EXPRS m.
Proof.
  intros m r F H. destruct H as [t H|t H|t l H _|o b e c H _ _|l H|o l c H _ _|l H].
  - eapply is_in; [exact H|sub].
  - apply variable_exprs; [now apply Forall_head in F|exact H].
  - destruct H as [H|H]; [|eapply is_in; [exact H|sub]]. apply variable_exprs; [now apply Forall_head in F|exact H].
  - eapply is_in; [exact H|sub].
  - eapply heads_in; [exact (str_heads _ _ H)|sub].
  - eapply is_in; [exact H|sub].
  - eapply heads_in; [exact (hash_heads _ H)|sub].
Qed.
Lemma operand_heads : forall a r, Forall ok (a ++ r) -> operand a -> heads EXPRS a.
Proof.
  intros a r F H. destruct H as [u a H _|m f H _].
  - eapply is_in; [exact H|sub].
  - apply heads_app. eapply primary_heads; [rewrite <- app_assoc in F; exact F|exact H].
Qed.
Lemma expr_heads : forall b x r, Forall ok (x ++ r) -> expr b x -> heads EXPRS x.
Proof.
  intros b x r F H. destruct H as [b a p q H _ _]. apply heads_app. eapply operand_heads; [rewrite <- app_assoc in F; exact F|exact H].
Qed.
Lemma named_names : forall t, ok t -> named t -> is NAMES t.
Proof. intros t [O _]. now apply named_kind. Qed.

(** * Contracts of the recursive entry points *)

Definition left_over (q r l : list token) : Prop := l = r \/ exists p, ops p /\ l = p ++ q ++ r.

(** Tokens at which no expression starts. *)
Definition NOEXPR : list kind :=
  minus PUNCT ([TK_OPEN_PARENTHESIS; TK_OPEN_SQUARE; TK_OPEN_CURLY; TK_NUMBER] ++ QUOTES ++ UNARY).

Record Exprs (dbg : bool) (N : nat) : Prop := {
  x_expr : forall b x r, expr b x -> estop b r ->
    acc dbg N (body (CExpr 0)) (x ++ r) (fun o l => o <> None /\ l = r);
  x_arrow : forall n q b x r, variable n -> is [TK_EQUAL_GREATER_THAN] q -> expr b x -> estop b r ->
    acc dbg N (body (CExpr 0)) (n :: q :: x ++ r) (fun o l => o <> None /\ l = r);
  x_none : forall t r, is NOEXPR t -> acc dbg N (body (CExpr 0)) (t :: r) (fun o l => o = None /\ l = t :: r);
  x_bin : forall bp a p b q r, bp <> 0 -> operand a -> ops p -> cond b q -> estop b r ->
    acc dbg N (body (CExpr bp)) (a ++ p ++ q ++ r) (fun o l => o <> None /\ left_over q r l);
  x_test : forall bp s t a p b q r, is TWO_WORD_TESTS s -> operand (t :: a) -> ~ is [TK_OPEN_PARENTHESIS] t -> ops p ->
    cond b q -> estop b r ->
    acc dbg N (body (CExpr bp)) (s :: t :: a ++ p ++ q ++ r) (fun o l => o <> None /\ l = r) }.

Section Step.
  Context (dbg : bool) (N : nat) (IH : forall N', N' < N -> Exprs dbg N').
  Local Notation acc := (acc dbg N).

  Lemma call_expr : forall b x r (Q : option nat -> list token -> Prop), expr b x -> estop b r -> (forall m, Q (Some m) r) ->
    acc parse_twig_expression (x ++ r) Q.
  Proof.
    intros b x r Q Hx Hr HQ. apply acc_call. intros N' L. eapply acc_conseq; [exact (x_expr _ _ (IH N' L) b x r Hx Hr)|].
    intros [m|] l [E ->]; [apply HQ|congruence].
  Qed.
  Lemma call_none : forall t r (Q : option nat -> list token -> Prop), is NOEXPR t -> Q None (t :: r) ->
    acc parse_twig_expression (t :: r) Q.
  Proof.
    intros t r Q Ht HQ. apply acc_call. intros N' L. eapply acc_conseq; [exact (x_none _ _ (IH N' L) t r Ht)|].
    intros o l [-> ->]. exact HQ.
  Qed.

  Lemma acc_name : forall t w (Q : option nat -> list token -> Prop), rfull TWIG_NAME_REGEX (tk_text t) = true \/ is TWO_WORD_TESTS t ->
    (forall m, Q (Some m) w) -> acc parse_twig_name (t :: w) Q.
  Proof.
    intros t w Q H HQ. unfold parse_twig_name. apply acc_bind. eapply acc_at_set; [reflexivity|]. cbv beta.
    apply acc_bind, acc_peek. cbn [hd_error].
    assert (E : negb (l_at_set [TK_SAME_AS; TK_DIVISIBLE_BY] (t :: w)) && negb (rfull TWIG_NAME_REGEX (tk_text t)) = false).
    { destruct H as [H|H].
      - rewrite H. apply andb_false_r.
      - cbn [l_at_set]. apply is_mem in H. unfold TWO_WORD_TESTS in H. now rewrite H. }
    rewrite E. esteps. apply HQ.
  Qed.
  Lemma acc_noname : forall t w (Q : option nat -> list token -> Prop), rfull TWIG_NAME_REGEX (tk_text t) = false -> ~ is TWO_WORD_TESTS t ->
    Q None (t :: w) -> acc parse_twig_name (t :: w) Q.
  Proof.
    intros t w Q H H2 HQ. unfold parse_twig_name. apply acc_bind. eapply acc_at_set; [reflexivity|]. cbv beta.
    apply acc_bind, acc_peek. cbn [hd_error l_at_set]. apply nmem_is in H2. unfold TWO_WORD_TESTS in H2. rewrite H, H2. cbn [negb andb].
    apply acc_ret. exact HQ.
  Qed.
  Lemma punct_noname : forall t, ok t -> is PUNCT t -> rfull TWIG_NAME_REGEX (tk_text t) = false.
  Proof. intros t [O _] H. apply is_mem in H. apply O. exact H. Qed.

  (** ** Lists with commas *)

  Lemma acc_sep : forall (A : Set) (early atc : prog bool) (ip : prog A) (P it : list token -> Prop) HDS (c : token) w,
    (forall l, P l -> l = [] \/ it l \/ exists x k l', l = x ++ k :: l' /\ it x /\ is [TK_COMMA] k /\ P l') ->
    P [] ->
    (forall x r, Forall ok (x ++ r) -> it x -> heads HDS x) ->
    mem_kind TK_UNKNOWN HDS = false ->
    (forall l (Q : bool -> list token -> Prop), heads HDS l -> Q false l -> acc early l Q) ->
    (forall Q : bool -> list token -> Prop, Q true (c :: w) -> acc early (c :: w) Q) ->
    (forall Q : bool -> list token -> Prop, Q true (c :: w) -> acc atc (c :: w) Q) ->
    ~ is [TK_UNKNOWN; TK_COMMA] c ->
    (forall x r (Q : A -> list token -> Prop), it x -> heads [TK_COMMA] r \/ r = c :: w -> (forall a, Q a r) -> acc ip (x ++ r) Q) ->
    forall l, P l -> acc (parse_many early (ip ;; If at_ TK_COMMA Then (bump ;; Ret tt)
                           Else If atc Then Ret tt Else add_error ",")) (l ++ c :: w) (fun _ l' => l' = c :: w).
  Proof.
    intros A early atc ip P it HDS c w Hinv Hnil Hh Hu E1 E2 E3 Hc Hip l Hl.
    apply acc_ok. fold ok. intros F0.
    apply (acc_many_u dbg N _ _ (fun k => exists l, P l /\ k = l ++ c :: w /\ Forall ok k) (fun k => k = c :: w)); [..|eauto].
    - intros (l' & _ & E & _). destruct l'; discriminate.
    - intros t k (l' & Hl' & E & F) K. exfalso.
      assert (X : forall x r, it x -> t :: k = x ++ r -> False).
      { intros x r Hx Ex. rewrite Ex in F. apply (Hh _ _ F) in Hx. destruct x as [|t' x]; [destruct Hx|]. injection Ex as <- _.
        cbn [heads] in Hx. apply is_mem in Hx. rewrite K in Hx. congruence. }
      destruct (Hinv _ Hl') as [->|[H|(x & d & l'' & -> & Hx & _ & _)]].
      + injection E as -> _. apply Hc. left. exact (eq_sym K).
      + exact (X _ _ H E).
      + rewrite <- app_assoc in E. exact (X _ _ Hx E).
    - intros t k (l' & Hl' & E & F) _. rewrite E in F |- *.
      destruct (Hinv _ Hl') as [->|[H|(x & d & l'' & -> & Hx & Hd & Hl'')]].
      + cbn [app]. apply E2. auto.
      + apply E1; [apply heads_app; eauto|]. split; [reflexivity|]. cbv iota beta.
        apply acc_bind, (Hip l' (c :: w)); [exact H|auto|]. intros a. apply acc_bind.
        eapply acc_at; [cbn [l_at]|]. { apply nmem_is in Hc. cbn [mem_kind existsb] in Hc. apply orb_false_iff in Hc as [_ Hc].
          apply orb_false_iff in Hc as [Hc _]. exact Hc. }
        cbv iota. apply acc_bind, E3. cbv iota. apply acc_ret. left. split.
        * pose proof (Hh _ _ F H) as G. destruct l'; [destruct G|]. rewrite app_length. cbn [length]. lia.
        * exists []. apply Forall_app in F as [_ F]. auto.
      + rewrite <- app_assoc in F |- *. cbn [app] in *. apply E1; [apply heads_app; eauto|]. split; [reflexivity|]. cbv iota beta.
        apply acc_bind, (Hip x); [exact Hx|left; exact Hd|]. intros a. apply acc_bind. estep. estep. estep. estep. left. split.
        * rewrite !app_length. cbn [length]. rewrite app_length. cbn [length]. lia.
        * exists l''. apply Forall_app in F as [_ F]. inversion F. auto.
  Qed.

  Lemma exprs_inv : forall l, exprs l -> l = [] \/ (exists b, expr b l) \/ exists x k l', l = x ++ k :: l' /\ (exists b, expr b x) /\ is [TK_COMMA] k /\ exprs l'.
  Proof. intros l H. destruct H; eauto 10. Qed.
  Lemma args_inv : forall l, args l -> l = [] \/ arg l \/ exists x k l', l = x ++ k :: l' /\ arg x /\ is [TK_COMMA] k /\ args l'.
  Proof. intros l H. destruct H; eauto 10. Qed.
  Lemma pairs_inv : forall l, pairs l -> l = [] \/ pair l \/ exists x k l', l = x ++ k :: l' /\ pair x /\ is [TK_COMMA] k /\ pairs l'.
  Proof. intros l H. destruct H; eauto 10. Qed.

  Definition ENDS : list kind := [TK_COMMA; TK_CLOSE_SQUARE; TK_CLOSE_PARENTHESIS; TK_CLOSE_CURLY].
  Lemma ends_estop : forall b r, heads ENDS r -> estop b r.
  Proof. intros b r H. apply heads_stops. eapply heads_in; [exact H|]. destruct b; sub. Qed.
  Lemma ends_of : forall k c w r, mem_kind k ENDS = true -> is [k] c -> heads [TK_COMMA] r \/ r = c :: w -> heads ENDS r.
  Proof.
    intros k c w r E H [G| ->]; [eapply heads_in; [exact G|sub]|]. apply is1 in H. apply mem_is. now rewrite H.
  Qed.

  Lemma acc_exprs : forall l c w (Q : unit -> list token -> Prop), exprs l -> is [TK_CLOSE_SQUARE] c -> (forall u, Q u (c :: w)) ->
    acc (parse_many (at_ TK_CLOSE_SQUARE) (parse_twig_expression ;; If at_ TK_COMMA Then bump ;; Ret tt
           Else If at_ TK_CLOSE_SQUARE Then Ret tt Else add_error ",")) (l ++ c :: w) Q.
  Proof.
    intros l c w Q Hl Hc HQ. eapply acc_conseq.
    - apply (acc_sep _ _ _ _ exprs (fun x => exists b, expr b x) EXPRS c w exprs_inv); auto.
      + constructor.
      + intros x r F [b Hx]. eapply expr_heads; eassumption.
      + intros k Q' Hk HQ'. estep. exact HQ'.
      + intros Q' HQ'. estep. exact HQ'.
      + intros Q' HQ'. estep. exact HQ'.
      + intros H. apply is1 in Hc. apply is_mem in H. rewrite Hc in H. vm_compute in H. congruence.
      + intros x r Q' [b Hx] Hr HQ'. eapply call_expr; [exact Hx| |intros m; apply HQ'].
        apply ends_estop. eapply ends_of; [|exact Hc|exact Hr]. reflexivity.
    - intros u l' ->. apply HQ.
  Qed.

  (** An argument never starts with a name and an equal sign by accident. *)
  Lemma primary_two : forall m w, primary m -> stops (minus PSTOP [TK_EQUAL]) w \/ heads [TK_DOT; TK_OPEN_SQUARE; TK_SINGLE_PIPE] w ->
    (exists t l, m = t :: l /\ ~ is [TK_WORD] t) \/ (exists t, m = [t]) \/ exists t u l, m = t :: u :: l /\ is [TK_OPEN_PARENTHESIS] u.
  Proof.
    intros m w H _. destruct H as [t H|t H|t l H Hl|o b e c H _ _|l H|o l c H _ _|l H]; eauto 10.
    - right. right. destruct Hl as [o l c Ho _ _]. cbn [app]. eauto 10.
    - left. exists o, (e ++ [c]). split; [reflexivity|]. intros G. apply is1 in G. apply is1 in H. congruence.
    - left. apply str_heads in H. destruct l as [|t l]; [destruct H|]. exists t, l. split; [reflexivity|]. intros G.
      apply is_mem in H. apply is1 in G. rewrite G in H. vm_compute in H. congruence.
    - left. exists o, (l ++ [c]). split; [reflexivity|]. intros G. apply is1 in G. apply is1 in H. congruence.
    - left. apply hash_heads in H. destruct l as [|t l]; [destruct H|]. exists t, l. split; [reflexivity|]. intros G.
      apply is1 in H. apply is1 in G. congruence.
  Qed.
  Lemma two_stop : forall a b S t w, stops S w -> mem_kind b S = false -> two a b (t :: w) = false.
  Proof.
    intros a b S t w [->|H] E; [reflexivity|]. destruct w as [|u w]; [destruct H|]. cbn [two]. apply andb_false_iff. right.
    destruct (kind_eqb (tk_kind u) b) eqn:K; [|reflexivity]. apply kind_eqb_eq in K. apply is_mem in H. congruence.
  Qed.
  Lemma two_head : forall a b t w, ~ is [a] t -> two a b (t :: w) = false.
  Proof.
    intros a b t w H. cbn [two]. destruct w as [|u w]; [reflexivity|]. apply andb_false_iff. left. apply nmem_is in H.
    cbn [mem_kind existsb] in H. now rewrite orb_false_r in H.
  Qed.
  Lemma postfix_stop : forall S f w, postfix f -> stops S w -> stops (POSTFIX ++ S) (f ++ w).
  Proof.
    intros S f w Hf Hw. destruct (postfix_heads _ Hf) as [->|H]; [|right; apply heads_app].
    - destruct Hw as [->|Hw]; [now left|right]. eapply heads_sub; [exact Hw|]. intros k Hk. apply in_or_app. now right.
    - eapply heads_sub; [exact H|]. intros k Hk. apply in_or_app. now left.
  Qed.
  Lemma expr_two : forall b x r, expr b x -> heads ENDS r -> two TK_WORD TK_EQUAL (x ++ r) = false.
  Proof.
    intros b x r H Hr. destruct H as [b a p q Ha Hp Hq]. rewrite <- !app_assoc.
    pose proof (ops_stop p b q r Hp Hq (ends_estop _ _ Hr)) as S0.
    assert (S1 : stops (minus PSTOP [TK_EQUAL]) (p ++ q ++ r)).
    { destruct (ops_heads _ Hp) as [->|G]; [|right; apply heads_app; eapply heads_in; [exact G|sub]].
      cbn [app]. destruct (cond_heads _ _ Hq) as [[-> ->]|G]; [|right; apply heads_app; eapply heads_in; [exact G|sub]].
      right. eapply heads_in; [exact Hr|sub]. }
    destruct Ha as [u a Hu _|m f Hm Hf].
    - apply two_head. intros G. apply is1 in G. apply is_mem in Hu. rewrite G in Hu. vm_compute in Hu. congruence.
    - rewrite <- app_assoc. pose proof (postfix_stop _ _ _ Hf S1) as S2.
      destruct (primary_two m (p ++ q ++ r) Hm (or_introl S1)) as [(t & l & -> & G)|[(t & ->)|(t & u & l & -> & G)]]; cbn [app].
      + now apply two_head.
      + eapply two_stop; [exact S2|sub].
      + cbn [two]. apply is1 in G. rewrite G. apply andb_false_r.
  Qed.

  Lemma acc_arg : forall x r (Q : option nat -> list token -> Prop), arg x -> heads ENDS r -> (forall a, Q a r) ->
    acc parse_twig_function_argument (x ++ r) Q.
  Proof.
    intros x r Q Hx Hr HQ. unfold parse_twig_function_argument. apply acc_bind. destruct Hx as [b x Hx|n q b x Hn Hq Hx|n q b x Hn Hq Hx].
    - eapply acc_at_following; [eapply expr_two; eassumption|]. tidy. eapply call_expr; [exact Hx| |auto]. now apply ends_estop.
    - eapply acc_at_following; [cbn [two app]; apply is1 in Hn, Hq; rewrite Hn, Hq; sub|]. cbn [app]. esteps.
      eapply call_expr; [exact Hx|now apply ends_estop|]. intros m'. esteps. apply HQ.
    - eapply acc_at_following; [cbn [two app]; apply is1 in Hq; rewrite Hq; apply andb_false_r|]. tidy.
      apply acc_call. intros N' L. eapply acc_conseq; [exact (x_arrow _ _ (IH N' L) n q b x r Hn Hq Hx (ends_estop _ _ Hr))|].
      intros o l [_ ->]. apply HQ.
  Qed.

  Lemma arg_heads : forall x r, Forall ok (x ++ r) -> arg x -> heads EXPRS x.
  Proof.
    intros x r F H. destruct H as [b x Hx|n q b x Hn _ _|n q b x Hn _ _].
    - eapply expr_heads; eassumption.
    - eapply is_in; [exact Hn|sub].
    - apply variable_exprs; [now apply Forall_head in F|exact Hn].
  Qed.

  Lemma acc_args : forall closing l c w (Q : unit -> list token -> Prop), const EXPRS (fun k => mem_kind k closing) false = true ->
    mem_kind TK_CLOSE_PARENTHESIS closing = true ->
    args l -> is [TK_CLOSE_PARENTHESIS] c -> (forall u, Q u (c :: w)) ->
    acc (parse_arguments closing) (l ++ c :: w) Q.
  Proof.
    intros closing l c w Q E1 E2 Hl Hc HQ. unfold parse_arguments. eapply acc_conseq.
    - apply (acc_sep _ _ _ _ args arg EXPRS c w args_inv); auto.
      + constructor.
      + exact arg_heads.
      + intros k Q' Hk HQ'. eapply acc_at_set; [eapply at_set_dec; [exact Hk|exact E1]|]. exact HQ'.
      + intros Q' HQ'. eapply acc_at_set; [cbn [l_at_set]; apply is1 in Hc; rewrite Hc; exact E2|]. exact HQ'.
      + intros Q' HQ'. eapply acc_at_set; [cbn [l_at_set]; apply is1 in Hc; rewrite Hc; exact E2|]. exact HQ'.
      + intros H. apply is1 in Hc. apply is_mem in H. rewrite Hc in H. vm_compute in H. congruence.
      + intros x r Q' Hx Hr HQ'. apply acc_arg; auto. eapply ends_of; [|exact Hc|exact Hr]. reflexivity.
    - intros u l' ->. apply HQ.
  Qed.

  Lemma acc_function : forall l w m (Q : nat -> list token -> Prop), call l -> (forall m, Q m w) -> acc (parse_twig_function m) (l ++ w) Q.
  Proof.
    intros l w m Q Hl HQ. destruct Hl as [o l c Ho Hl Hc]. unfold parse_twig_function. tidy. esteps.
    apply acc_args; auto. intros _. esteps. apply HQ.
  Qed.

  (** ** Strings *)

  Lemma acc_chars : forall q i l c w (Q : unit -> list token -> Prop), is QUOTES c -> tk_kind c = q -> chars q i l -> (forall u, Q u (c :: w)) ->
    acc (parse_many (at_ q) (twig_string_child q i)) (l ++ c :: w) Q.
  Proof.
    intros q i l c w Q Hc Ec Hl HQ. eapply acc_conseq.
    - apply (acc_many_u dbg N _ _ (fun k => exists l, chars q i l /\ k = l ++ c :: w) (fun k => k = c :: w)); [..|eauto].
      + intros (l' & _ & E). destruct l'; discriminate.
      + intros t k (l' & Hl' & E) K. destruct Hl' as [q i|q i t' l' _ _ _ Hl'|q i s t' l' Hs _ _|q h o b e c' l' Hh _ _ _ _].
        * injection E as -> _. apply is_mem in Hc. rewrite K in Hc. vm_compute in Hc. congruence.
        * injection E as _ ->. eauto.
        * injection E as -> _. apply is1 in Hs. congruence.
        * injection E as -> _. apply is1 in Hh. congruence.
      + intros t k (l' & Hl' & E) K. rewrite E. destruct Hl' as [q i|q i t' l' Hq Hb Hh Hl'|q i s t' l' Hs Ht Hl'|q h o b e c' l' Hh Ho He Hc' Hl']; cbn [app].
        * eapply acc_at; [cbn [l_at]; rewrite Ec; apply kind_eqb_refl|]. cbv iota. auto.
        * eapply acc_at; [cbn [l_at]; apply nmem_is in Hq; cbn [mem_kind existsb] in Hq; rewrite orb_false_r in Hq; exact Hq|]. split; [reflexivity|].
          cbv iota. unfold twig_string_child. apply acc_bind. eapply acc_at_following.
          { destruct (kind_eqb (tk_kind t') TK_BACKWARD_SLASH) eqn:B; [|destruct (l' ++ c :: w); cbn [two]; rewrite ?B; reflexivity].
            apply kind_eqb_eq, kind_is1 in B. destruct (Hb B) as (u & k' & -> & Hu). cbn [app two]. apply andb_false_iff. right.
            apply nmem_is in Hu. cbn [mem_kind existsb] in Hu. rewrite orb_false_r in Hu. exact Hu. }
          tidy. apply acc_bind. eapply acc_at_following.
          { destruct (kind_eqb (tk_kind t') TK_HASHTAG) eqn:B; [|destruct (l' ++ c :: w); cbn [two]; rewrite ?B; reflexivity].
            apply kind_eqb_eq, kind_is1 in B. specialize (Hh B). destruct l' as [|u k']; cbn [app two]; apply andb_false_iff; right.
            - hd_dec.
            - specialize (Hh u k' eq_refl). apply nmem_is in Hh. cbn [mem_kind existsb] in Hh. rewrite orb_false_r in Hh. exact Hh. }
          tidy. esteps. left. split; [cbn [length]; lia|eauto].
        * eapply acc_at; [cbn [l_at]|]. { apply is1 in Hs. rewrite Hs. rewrite <- Ec.
            destruct (kind_eqb _ _) eqn:B; [|reflexivity]. apply kind_eqb_eq in B. apply is_mem in Hc. rewrite <- B in Hc. vm_compute in Hc. congruence. }
          split; [reflexivity|]. cbv iota. unfold twig_string_child. apply acc_bind. eapply acc_at_following.
          { cbn [two]. apply is1 in Hs, Ht. rewrite Hs, Ht, !kind_eqb_refl. reflexivity. }
          tidy. esteps. left. split; [cbn [length]; lia|eauto].
        * eapply acc_at; [cbn [l_at]|]. { apply is1 in Hh. rewrite Hh. rewrite <- Ec.
            destruct (kind_eqb _ _) eqn:B; [|reflexivity]. apply kind_eqb_eq in B. apply is_mem in Hc. rewrite <- B in Hc. vm_compute in Hc. congruence. }
          split; [reflexivity|]. cbv iota. unfold twig_string_child. apply acc_bind. eapply acc_at_following.
          { cbn [two]. apply is1 in Hh. rewrite Hh. sub. }
          tidy. apply acc_bind. eapply acc_at_following.
          { cbn [two]. apply is1 in Hh, Ho. rewrite Hh, Ho. sub. }
          tidy. esteps. eapply call_expr; [exact He|apply ends_estop; eapply is_in; [exact Hc'|sub]|]. intros m'. tidy. esteps.
          left. split; [cbn [length]; rewrite ?app_length; cbn [length]; rewrite ?app_length; cbn [length]; lia|eauto].
    - intros u l' ->. apply HQ.
  Qed.

  Lemma acc_string : forall i l w (Q : nat -> list token -> Prop), str i l -> (forall m, Q m w) -> acc (parse_twig_string i) (l ++ w) Q.
  Proof.
    intros i l w Q Hl HQ. destruct Hl as [i q l c Hq Hl Hc|i q l c Hq Hl Hc]; unfold parse_twig_string; tidy; cbn [app];
      esteps; pose proof (is1 _ _ Hq) as Kq; pose proof (is1 _ _ Hc) as Kc; cbn [tk_kind]; rewrite Kq.
    - replace (kind_eqb TK_DOUBLE_QUOTES TK_DOUBLE_QUOTES && i) with i by (symmetry; sub).
      apply acc_chars; auto; [eapply is_in; [exact Hc|sub]|]. intros u. esteps. apply HQ.
    - replace (kind_eqb TK_SINGLE_QUOTES TK_DOUBLE_QUOTES && i) with false by (symmetry; sub).
      apply acc_chars; auto; [eapply is_in; [exact Hc|sub]|]. intros u. esteps. apply HQ.
  Qed.

  (** ** Arrays and hashes *)

  Lemma acc_array : forall o l c w (Q : nat -> list token -> Prop), is [TK_OPEN_SQUARE] o -> exprs l -> is [TK_CLOSE_SQUARE] c -> (forall m, Q m w) ->
    acc parse_twig_array (o :: l ++ c :: w) Q.
  Proof.
    intros o l c w Q Ho Hl Hc HQ. unfold parse_twig_array. esteps. apply acc_exprs; auto. intros u. esteps. apply HQ.
  Qed.

  Definition KEYS : list kind := minus all_kinds (TK_UNKNOWN :: minus PUNCT ([TK_OPEN_PARENTHESIS; TK_NUMBER] ++ QUOTES)).
  Lemma key_heads : forall k r, Forall ok (k ++ r) -> key k -> heads KEYS k.
  Proof.
    intros k r F H. destruct H as [t H|t H|l H|o b e c H _ _].
    - eapply is_in; [exact H|sub].
    - eapply is_in; [exact (named_names _ (Forall_head _ _ _ _ _ F) H)|sub].
    - eapply heads_in; [exact (str_heads _ _ H)|sub].
    - eapply is_in; [exact H|sub].
  Qed.
  Lemma pair_heads : forall x r, Forall ok (x ++ r) -> pair x -> heads KEYS x.
  Proof.
    intros x r F H. destruct H as [k H|k c b x H _ _].
    - eapply key_heads; eassumption.
    - apply heads_app. eapply key_heads; [rewrite <- app_assoc in F; exact F|exact H].
  Qed.

  Lemma acc_key : forall k w (Q : option nat -> list token -> Prop), key k -> (forall m, Q (Some m) w) -> acc parse_twig_hash_key (k ++ w) Q.
  Proof.
    intros k w Q Hk HQ. unfold parse_twig_hash_key. destruct Hk as [t H|t H|l H|o b e c Ho He Hc]; cbn [app].
    - unfold parse_twig_number. esteps. apply HQ.
    - apply acc_ok. fold ok. intros F. assert (K : is NAMES t) by (apply named_names; [now apply (Forall_head _ _ t [] w)|exact H]).
      esteps. apply acc_peek. cbn [hd_error]. rewrite (named_regex _ H). esteps. apply HQ.
    - pose proof (str_heads _ _ H) as K. esteps. apply acc_string; [exact H|]. intros m. esteps. apply HQ.
    - rewrite <- app_assoc. cbn [app]. esteps. eapply call_expr; [exact He|apply ends_estop; eapply is_in; [exact Hc|sub]|].
      intros m'. tidy. esteps. apply HQ.
  Qed.
  Lemma acc_pair : forall x r (Q : option nat -> list token -> Prop), pair x -> heads [TK_COMMA; TK_CLOSE_CURLY] r -> (forall a, Q a r) ->
    acc parse_twig_hash_pair (x ++ r) Q.
  Proof.
    intros x r Q Hx Hr HQ. unfold parse_twig_hash_pair. destruct Hx as [k Hk|k c b x Hk Hc Hx].
    - apply acc_bind, acc_key; [exact Hk|]. intros m. esteps. apply HQ.
    - rewrite <- app_assoc. cbn [app]. apply acc_bind, acc_key; [exact Hk|]. intros m. esteps.
      eapply call_expr; [exact Hx|apply ends_estop; eapply heads_in; [exact Hr|sub]|]. intros m'. tidy. esteps. apply HQ.
  Qed.
  Lemma acc_pairs : forall l c w (Q : unit -> list token -> Prop), pairs l -> is [TK_CLOSE_CURLY] c -> (forall u, Q u (c :: w)) ->
    acc (parse_many (at_ TK_CLOSE_CURLY) (parse_twig_hash_pair ;; If at_ TK_COMMA Then bump ;; Ret tt
           Else If at_ TK_CLOSE_CURLY Then Ret tt Else add_error ",")) (l ++ c :: w) Q.
  Proof.
    intros l c w Q Hl Hc HQ. eapply acc_conseq.
    - apply (acc_sep _ _ _ _ pairs pair KEYS c w pairs_inv); auto.
      + constructor.
      + exact pair_heads.
      + intros k Q' Hk HQ'. estep. exact HQ'.
      + intros Q' HQ'. estep. exact HQ'.
      + intros Q' HQ'. estep. exact HQ'.
      + intros H. apply is1 in Hc. apply is_mem in H. rewrite Hc in H. vm_compute in H. congruence.
      + intros x r Q' Hx Hr HQ'. apply acc_pair; auto. destruct Hr as [Hr| ->]; [eapply heads_in; [exact Hr|sub]|eapply is_in; [exact Hc|sub]].
    - intros u l' ->. apply HQ.
  Qed.
  Lemma acc_hash : forall l w (Q : nat -> list token -> Prop), hash l -> (forall m, Q m w) -> acc parse_twig_hash (l ++ w) Q.
  Proof.
    intros l w Q Hl HQ. destruct Hl as [o l c Ho Hl Hc]. tidy. unfold parse_twig_hash. esteps. apply acc_pairs; auto. intros u. esteps. apply HQ.
  Qed.

  (** ** Postfix operators *)

  Definition CLOSE_SQUARE_STOP : forall b c w, is [TK_CLOSE_SQUARE] c -> estop b (c :: w).
  Proof. intros b c w H. apply ends_estop. eapply is_in; [exact H|sub]. Qed.
  Lemma colon_stop : forall c w, is [TK_COLON] c -> estop true (c :: w).
  Proof. intros c w H. right. eapply is_in; [exact H|sub]. Qed.

  Lemma acc_accessor : forall d t w m (Q : nat -> list token -> Prop), is [TK_DOT] d -> named t \/ is [TK_NUMBER] t ->
    stops (minus all_kinds [TK_OPEN_PARENTHESIS]) w -> (forall m, Q m w) -> acc (parse_twig_accessor m) (d :: t :: w) Q.
  Proof.
    intros d t w m Q Hd Ht Hw HQ. unfold parse_twig_accessor. destruct Ht as [Ht|Ht].
    - apply acc_ok. fold ok. intros F. assert (K : is NAMES t).
      { apply named_names; [|exact Ht]. inversion F as [|x y _ F']. now inversion F'. }
      esteps. apply acc_name; [left; now apply named_regex|]. intros m'. tidy. esteps. apply HQ.
    - unfold parse_twig_number. esteps. apply HQ.
  Qed.
  Lemma acc_method : forall d t l w m (Q : nat -> list token -> Prop), is [TK_DOT] d -> named t -> call l ->
    (forall m, Q m w) -> acc (parse_twig_accessor m) (d :: t :: l ++ w) Q.
  Proof.
    intros d t l w m Q Hd Ht Hl HQ. unfold parse_twig_accessor. pose proof (call_heads _ Hl) as Hh.
    apply acc_ok. fold ok. intros F. assert (K : is NAMES t).
    { apply named_names; [|exact Ht]. inversion F as [|x y _ F']. now inversion F'. }
    esteps. apply acc_name; [left; now apply named_regex|]. intros m'. tidy. esteps. apply acc_function; [exact Hl|]. intros. apply HQ.
  Qed.
  Lemma acc_filter : forall l w m (Q : nat -> list token -> Prop), filter_call l -> stops (minus all_kinds [TK_OPEN_PARENTHESIS]) w ->
    (forall m, Q m w) -> acc (parse_twig_filter m) (l ++ w) Q.
  Proof.
    intros l w m Q Hl Hw HQ. unfold parse_twig_filter. destruct Hl as [p t Hp Ht|p t l Hp Ht Hl]; cbn [app].
    - esteps. apply acc_name; [left; now apply named_regex|]. intros m'. tidy. esteps. apply HQ.
    - destruct Hl as [o l c Ho Hl Hc]. tidy. esteps. apply acc_name; [left; now apply named_regex|]. intros m'. tidy. esteps.
      apply acc_args; auto. intros u. esteps. apply HQ.
  Qed.

  Lemma acc_postfix : forall f w m (Q : nat -> list token -> Prop), postfix f -> stops PSTOP w -> (forall m, Q m w) ->
    acc (parse_postfix_operators m) (f ++ w) Q.
  Proof.
    intros f w m Q Hf Hw HQ. unfold parse_postfix_operators. eapply acc_conseq.
    - apply (acc_many dbg N _ _ _ (fun _ k => exists f, postfix f /\ k = f ++ w) (fun _ k => k = w)); [..|eauto].
      + intros _ (f' & _ & E). apply eq_sym in E. apply app_eq_nil in E as [_ ->]. reflexivity.
      + intros _ t k (f' & Hf' & E) K. exfalso. assert (S : stops (POSTFIX ++ PSTOP) (t :: k)) by (rewrite E; now apply postfix_stop).
        destruct S as [S|S]; [discriminate S|]. refine (disj _ _ _ (kind_is1 _ _ K) (heads_is _ _ _ S) _); sub.
      + intros x t k (f' & Hf' & E) _. apply acc_ret. split; [reflexivity|]. cbn [fst snd]. rewrite E.
        assert (P : forall f w', postfix f -> w' = f ++ w -> stops (minus all_kinds [TK_OPEN_PARENTHESIS]) w').
        { intros f1 w' Hf1 ->. eapply stops_sub; [apply postfix_stop; eassumption|sub]. }
        destruct Hf' as [|d t' f' Hd Ht Hf'|d t' l f' Hd Ht Hl Hf'|o b e c f' Ho He Hc Hf'|o e n b y c f' Ho He Hn Hy Hc Hf'|o n b y c f' Ho Hn Hy Hc Hf'
          |o e n c f' Ho He Hn Hc Hf'|l f' Hl Hf'].
        * cbn [app] in *. esteps. right. split; [reflexivity|]. split; [exists []; split; [constructor|reflexivity]|reflexivity].
        * cbn [app]. esteps. apply acc_accessor; [exact Hd|exact Ht|now apply (P f')|]. intros m'. left. split; [cbn [length]; lia|eauto].
        * cbn [app]. rewrite <- app_assoc. esteps. apply acc_method; auto. intros m'. left.
          split; [cbn [length]; rewrite ?app_length; lia|eauto].
        * cbn [app]. rewrite <- app_assoc. cbn [app]. esteps. unfold parse_twig_indexer. esteps.
          eapply call_expr; [exact He|now apply CLOSE_SQUARE_STOP|]. intros m'. esteps.
          left. split; [rewrite ?app_length; cbn [length]; rewrite ?app_length; cbn [length]; rewrite ?app_length; lia|eauto].
        * cbn [app]. tidy. esteps. unfold parse_twig_indexer. esteps. eapply call_expr; [exact He|now apply colon_stop|].
          intros m'. esteps. eapply call_expr; [exact Hy|now apply CLOSE_SQUARE_STOP|]. intros m_. esteps. tidy. esteps.
          left. split; [repeat (rewrite ?app_length; cbn [length]); lia|eauto].
        * cbn [app]. tidy. esteps. unfold parse_twig_indexer. esteps. apply call_none; [eapply is_in; [exact Hn|sub]|]. tidy. esteps.
          eapply call_expr; [exact Hy|now apply CLOSE_SQUARE_STOP|]. intros m_. tidy. esteps. tidy. esteps.
          left. split; [repeat (rewrite ?app_length; cbn [length]); lia|eauto].
        * cbn [app]. tidy. esteps. unfold parse_twig_indexer. esteps. eapply call_expr; [exact He|now apply colon_stop|].
          intros m'. esteps. apply call_none; [eapply is_in; [exact Hc|sub]|]. tidy. esteps. tidy. esteps.
          left. split; [repeat (rewrite ?app_length; cbn [length]); lia|eauto].
        * pose proof (filter_heads _ Hl) as Hh. rewrite <- app_assoc. esteps. apply acc_filter; [exact Hl|now apply (P f')|]. intros m'. left.
          split; [|eauto]. destruct l; [destruct Hh|]. repeat (rewrite ?app_length; cbn [length]). lia.
    - intros m' l ->. apply HQ.
  Qed.

  (** ** Literals, names and calls *)

  Lemma not_two_word : forall (A : Type) k (a b : A), mem_kind k TWO_WORD_TESTS = false ->
    match Some k with Some TK_SAME_AS | Some TK_DIVISIBLE_BY => a | _ => b end = b.
  Proof. intros A k a b H. destruct k; try reflexivity; vm_compute in H; congruence. Qed.

  Lemma acc_literal : forall m w (Q : option nat -> list token -> Prop), primary m -> ~ heads [TK_OPEN_PARENTHESIS] m -> stops PSTOP w \/ heads POSTFIX w ->
    (forall n, Q (Some n) w) -> acc parse_twig_literal (m ++ w) Q.
  Proof.
    intros m w Q Hm Hn Hw HQ.
    assert (Hw' : stops (minus all_kinds [TK_OPEN_PARENTHESIS; TK_EQUAL_GREATER_THAN]) w).
    { destruct Hw as [Hw|Hw]; [eapply stops_sub; [exact Hw|sub]|right; eapply heads_in; [exact Hw|sub]]. }
    clear Hw. unfold parse_twig_literal. destruct Hm as [t H|t H|t l H Hl|o b e c Ho _ _|l H|o l c Ho Hl Hc|l H]; cbn [app].
    - assert (H' : is [TK_NUMBER] t \/ is [TK_NULL] t \/ is [TK_TRUE; TK_FALSE] t).
      { destruct H as [H|[H|H]]; [left|right; left|right; right]; try (left; exact H). exact H. }
      clear H. destruct H' as [H|[H|H]]; unfold parse_twig_number, parse_twig_null, parse_twig_boolean; esteps; apply HQ.
    - apply acc_ok. fold ok. intros F. pose proof (variable_kind t (proj1 (Forall_head _ _ t [] w F)) H) as K. esteps.
      apply acc_kind. cbn [l_kind]. esteps. apply acc_name; [left; apply named_regex, H|]. intros n. esteps.
      rewrite not_two_word by hd_dec. esteps. apply HQ.
    - pose proof (call_heads _ Hl) as Hh. apply acc_ok. fold ok. intros F.
      assert (K : is (VARIABLES ++ TWO_WORD_TESTS) t).
      { destruct H as [H|H]; [eapply is_in; [exact (variable_kind t (proj1 (Forall_head _ _ t [] _ F)) H)|sub]|eapply is_in; [exact H|sub]]. }
      esteps. apply acc_kind. esteps. apply acc_name; [destruct H as [H|H]; [left; apply named_regex, H|now right]|]. intros n. esteps.
      apply acc_function; [exact Hl|]. intros n'. esteps. apply HQ.
    - destruct (Hn Ho).
    - pose proof (str_heads _ _ H) as K. esteps. apply acc_string; [exact H|]. intros n. esteps. apply HQ.
    - tidy. esteps. apply acc_array; auto. intros n. esteps. apply HQ.
    - pose proof (hash_heads _ H) as K. esteps. apply acc_hash; [exact H|]. intros n. esteps. apply HQ.
  Qed.

  (** ** Infix operators and conditionals *)

  Lemma binary_power : forall o, is BINARY o -> exists lb rb, binary_binding_power (tk_kind o) = Some (lb, rb) /\ rb <> 0.
  Proof.
    intros o H. unfold is in H. remember (tk_kind o) as k eqn:E. clear E. cbn [BINARY In] in H.
    repeat (destruct H as [H|H]; [subst k; cbn; eexists; eexists; split; [reflexivity|lia]|]). destruct H.
  Qed.
  Lemma no_binary : forall S r, stops S r -> forallb (fun k => match binary_binding_power k with None => true | _ => false end) S = true ->
    match hd_error r with Some t => binary_binding_power (tk_kind t) | None => None end = None.
  Proof.
    intros S r [->|H] E; [reflexivity|]. destruct r as [|t r]; [destruct H|]. cbn [hd_error]. rewrite forallb_forall in E. specialize (E _ H).
    destruct (binary_binding_power _); congruence.
  Qed.

  Lemma acc_loop : forall bp lhs b q r l (Q : nat * bool -> list token -> Prop), cond b q -> estop b r -> left_over q r l ->
    (forall m k, left_over q r k -> (bp = 0 -> k = r \/ k = q ++ r) -> Q m k) -> acc (binary_loop bp lhs) l Q.
  Proof.
    intros bp lhs b q r l Q Hq Hr Hl HQ. unfold binary_loop.
    apply (acc_iter dbg N _ _ _ (fun _ k => left_over q r k) (fun m k => Q m k)); [|exact Hl].
    intros [x y] k Hk. apply acc_bind, acc_peek.
    assert (X : forall S, stops S k -> forallb (fun k => match binary_binding_power k with None => true | _ => false end) S = true ->
                k = r \/ k = q ++ r ->
                acc (match match hd_error k with Some t => binary_binding_power (tk_kind t) | None => None end with
                     | None => Ret (inr (x, y))
                     | Some (left_binding_power, right_binding_power) =>
                       if Nat.ltb left_binding_power bp then Ret (inr (x, y)) else
                       bump ;; m <- precede x ;; r <- parse_twig_expression_binding_power right_binding_power ;;
                       lhs <- complete m TWIG_BINARY_EXPRESSION ;;
                       if is_none r then Ret (inr (lhs, true)) else Ret (inl (lhs, true))
                     end) k (fun (y : nat * bool + nat * bool) k => match y with inl _ => left_over q r k | inr m => Q m k end)).
    { intros S HS E H. rewrite (no_binary _ _ HS E). apply acc_ret. apply HQ; [exact Hk|auto]. }
    destruct Hk as [->|(p & Hp & ->)].
    - apply (X _ Hr); [destruct b; sub|now left].
    - destruct Hp as [|o a p Ho Ha Hp|o s t a p Ho Hs Ha Ht Hp].
      + apply (X _ (cond_stop _ _ _ Hq Hr)); [sub|now right].
      + cbn [app hd_error]. destruct (binary_power _ Ho) as (lb & rb & E & Hrb). rewrite E. destruct (Nat.ltb_spec lb bp).
        * apply acc_ret. apply HQ; [right; exists (o :: a ++ p); split; [now constructor|reflexivity]|lia].
        * tidy. esteps. apply acc_call. intros N' L. eapply acc_conseq; [exact (x_bin _ _ (IH N' L) rb a p b q r Hrb Ha Hp Hq Hr)|].
          intros [n|] k [En Hk]; [|congruence]. esteps. exact Hk.
      + assert (Ho' : is BINARY o) by (eapply is_in; [exact Ho|sub]).
        cbn [app hd_error]. destruct (binary_power _ Ho') as (lb & rb & E & Hrb). rewrite E. destruct (Nat.ltb_spec lb bp).
        * apply acc_ret. apply HQ; [right; exists (o :: s :: t :: a ++ p); split; [now constructor|reflexivity]|lia].
        * tidy. esteps. apply acc_call. intros N' L. eapply acc_conseq; [exact (x_test _ _ (IH N' L) rb s t a p b q r Hs Ha Ht Hp Hq Hr)|].
          intros [n|] k [En ->]; [|congruence]. esteps. now left.
  Qed.

  Lemma acc_cond : forall lhs b q r l (Q : option nat -> list token -> Prop), cond b q -> estop b r -> l = r \/ l = q ++ r ->
    (forall o, Q o r) -> acc (parse_conditional_expression lhs) l Q.
  Proof.
    intros lhs b q r l Q Hq Hr Hl HQ. unfold parse_conditional_expression.
    assert (X : estop true r) by (destruct b; [exact Hr|now apply estop_false]).
    assert (Y : stops (minus all_kinds [TK_QUESTION_MARK]) r) by (eapply stops_sub; [exact X|sub]).
    destruct Hl as [->| ->]; [esteps; apply HQ|]. destruct Hq as [|u x c b y Hu Hx Hc Hy|u c b y Hu Hc Hy|u b x Hu Hx].
    - cbn [app]. esteps. apply HQ.
    - tidy. esteps. eapply call_expr; [exact Hx|now apply colon_stop|]. intros m'. tidy. esteps. eapply call_expr; [exact Hy|exact Hr|].
      intros m_. tidy. esteps. apply HQ.
    - tidy. esteps. apply call_none; [eapply is_in; [exact Hc|sub]|]. tidy. esteps. eapply call_expr; [exact Hy|exact Hr|].
      intros m_. tidy. esteps. apply HQ.
    - tidy. esteps. eapply call_expr; [exact Hx|now apply estop_false|]. intros m'. tidy.
      assert (Z : stops (ESTOP false) r) by exact Hr. esteps. apply HQ.
  Qed.

  Lemma acc_rhs : forall bp lhs b q r l (Q : nat -> list token -> Prop), cond b q -> estop b r -> left_over q r l ->
    (forall m k, left_over q r k -> (bp = 0 -> k = r) -> Q m k) -> acc (parse_twig_expression_binding_power_rhs bp lhs) l Q.
  Proof.
    intros bp lhs b q r l Q Hq Hr Hl HQ. unfold parse_twig_expression_binding_power_rhs. apply acc_bind.
    eapply acc_loop; [exact Hq|exact Hr|exact Hl|]. intros [m i] k Hk Hz. apply acc_bind.
    assert (X : forall m (b : bool), acc (if b then m <- precede m ;; complete m TWIG_EXPRESSION else Ret m) k
      (fun lhs0 l' => acc (if bp =? 0 then c <- parse_conditional_expression lhs0 ;; match c with Some m0 => Ret m0 | None => Ret lhs0 end else Ret lhs0) l' Q)).
    2:{ apply X. }
    assert (Y : forall lhs0, acc (if bp =? 0 then c <- parse_conditional_expression lhs0 ;; match c with Some m0 => Ret m0 | None => Ret lhs0 end else Ret lhs0) k Q).
    { intros lhs0. destruct (Nat.eqb_spec bp 0) as [->|Hb].
      - apply acc_bind. eapply acc_cond; [exact Hq|exact Hr|auto|]. intros [o|]; esteps; (apply HQ; [now left|auto]).
      - esteps. apply HQ; [exact Hk|lia]. }
    intros m' [|]; esteps; apply Y.
  Qed.

  Lemma acc_rhs_stop : forall bp lhs r (Q : nat -> list token -> Prop), estop true r -> (forall m, Q m r) ->
    acc (parse_twig_expression_binding_power_rhs bp lhs) r Q.
  Proof.
    intros bp lhs r Q Hr HQ. unfold parse_twig_expression_binding_power_rhs. apply acc_bind. unfold binary_loop.
    apply (acc_iter dbg N _ _ _ (fun st k => snd st = false /\ k = r)
      (fun (r0 : nat * bool) l' => acc (let (lhs, is_binary) := r0 in lhs <- (if is_binary : bool then m <- precede lhs ;; complete m TWIG_EXPRESSION else Ret lhs) ;;
         (if bp =? 0 then c <- parse_conditional_expression lhs ;; match c with Some m => Ret m | None => Ret lhs end else Ret lhs)) l' Q)).
    - intros [x y] k [Hy ->]. cbn [snd] in Hy. subst y. apply acc_bind, acc_peek. rewrite (no_binary (ESTOP true) r); [|exact Hr|sub]. apply acc_ret. esteps.
      destruct (bp =? 0); [|esteps; apply HQ]. apply acc_bind. apply (acc_cond _ true [] r); [constructor|exact Hr|now left|].
      intros [o|]; esteps; apply HQ.
    - auto.
  Qed.

  (** ** Parentheses *)

  Lemma close_paren_stop : forall b c w, is [TK_CLOSE_PARENTHESIS] c -> estop b (c :: w).
  Proof. intros b c w H. apply ends_estop. eapply is_in; [exact H|sub]. Qed.

  Lemma acc_paren_name : forall o t cl f p b q c w (Q : nat * bool -> list token -> Prop),
    is [TK_OPEN_PARENTHESIS] o -> is (minus EXPRS UNARY) t -> rfull TWIG_NAME_REGEX (tk_text t) = true \/ is TWO_WORD_TESTS t ->
    cl = [] \/ call cl -> postfix f -> ops p -> cond b q -> is [TK_CLOSE_PARENTHESIS] c -> stops (minus all_kinds [TK_EQUAL_GREATER_THAN]) w ->
    (forall m, Q (m, true) w) -> acc parse_paren_expression (o :: t :: cl ++ f ++ p ++ q ++ c :: w) Q.
  Proof.
    intros o t cl f p b q c w Q Ho Ht Hn Hcl Hf Hp Hq Hc Hw HQ.
    assert (S1 : stops (minus PSTOP [TK_COMMA]) (p ++ q ++ c :: w)).
    { destruct (ops_heads _ Hp) as [->|G]; [|right; apply heads_app; eapply heads_in; [exact G|sub]]. cbn [app].
      destruct (cond_heads _ _ Hq) as [[-> ->]|G]; [|right; apply heads_app; eapply heads_in; [exact G|sub]].
      right. eapply is_in; [exact Hc|sub]. }
    pose proof (postfix_stop _ _ _ Hf S1) as S2.
    assert (S3 : stops (TK_OPEN_PARENTHESIS :: POSTFIX ++ minus PSTOP [TK_COMMA]) (cl ++ f ++ p ++ q ++ c :: w)).
    { destruct Hcl as [->|Hcl]; [eapply stops_sub; [exact S2|sub]|]. right. apply heads_app. eapply heads_in; [exact (call_heads _ Hcl)|sub]. }
    assert (T : two TK_CLOSE_PARENTHESIS TK_EQUAL_GREATER_THAN (cl ++ f ++ p ++ q ++ c :: w) = false).
    { assert (T0 : forall S l, heads S l -> mem_kind TK_CLOSE_PARENTHESIS S = false -> two TK_CLOSE_PARENTHESIS TK_EQUAL_GREATER_THAN l = false).
      { intros S [|u l] H E; [destruct H|]. apply two_head. intros G. apply is1 in G. apply is_mem in H. congruence. }
      destruct Hcl as [->|Hcl]; [|eapply T0; [apply heads_app; exact (call_heads _ Hcl)|sub]]. cbn [app].
      destruct (postfix_heads _ Hf) as [->|G]; [|eapply T0; [apply heads_app; exact G|sub]]. cbn [app].
      destruct (ops_heads _ Hp) as [->|G]; [|eapply T0; [apply heads_app; exact G|sub]]. cbn [app].
      destruct (cond_heads _ _ Hq) as [[-> ->]|G]; [|eapply T0; [apply heads_app; exact G|sub]]. cbn [app].
      eapply two_stop; [exact Hw|sub]. }
    unfold parse_paren_expression. esteps. apply acc_peek. cbn [hd_error].
    rewrite (kdec (minus EXPRS UNARY) t (fun k => is_none (unary_binding_power k)) true); [|exact Ht|sub]. tidy. esteps.
    apply acc_name; [exact Hn|]. intros m'. esteps. eapply acc_at_following; [exact T|]. tidy.
    assert (X : forall k0, acc (lit_m <- parse_postfix_operators k0 ;; expr_m <- precede lit_m ;; lhs <- complete expr_m TWIG_EXPRESSION ;;
       parse_twig_expression_binding_power_rhs 0 lhs ;; Ret false) (f ++ p ++ q ++ c :: w)
       (fun (a : bool) l' => acc (if a then Ret (m, false) else expect TK_CLOSE_PARENTHESIS TWIG_EXPRESSION_RECOVERY_SET ;; Ret (m, true)) l' Q)).
    { intros m0. apply acc_bind, acc_postfix; [exact Hf|eapply stops_sub; [exact S1|sub]|]. intros m_. esteps.
      apply (acc_rhs _ _ b q (c :: w)); [exact Hq|exact (close_paren_stop _ _ _ Hc)|right; exists p; split; [exact Hp|reflexivity]|].
      intros mm k _ E. rewrite (E eq_refl). esteps. apply HQ. }
    destruct Hcl as [->|Hcl].
    - cbn [app] in *. apply acc_bind, acc_bind. estep. estep. apply X.
    - pose proof (call_heads _ Hcl) as Hh. apply acc_bind, acc_bind. estep. apply acc_function; [exact Hcl|]. intros m_. apply X.
  Qed.

  Lemma acc_paren_call : forall o t x b c w (Q : nat * bool -> list token -> Prop),
    is [TK_OPEN_PARENTHESIS] o -> expr b (t :: x) -> is UNARY t \/ rfull TWIG_NAME_REGEX (tk_text t) = false /\ ~ is TWO_WORD_TESTS t ->
    is [TK_CLOSE_PARENTHESIS] c -> (forall m, Q (m, true) w) -> acc parse_paren_expression (o :: (t :: x) ++ c :: w) Q.
  Proof.
    intros o t x b c w Q Ho Hx Ht Hc HQ. unfold parse_paren_expression. esteps. apply acc_peek. cbn [app hd_error].
    destruct (is_none (unary_binding_power (tk_kind t))) eqn:U.
    - destruct Ht as [Ht|[Ht Ht']].
      { rewrite (kdec UNARY t (fun k => is_none (unary_binding_power k)) false) in U; [discriminate U|exact Ht|sub]. }
      esteps. apply acc_noname; [exact Ht|exact Ht'|]. esteps. apply (call_expr b (t :: x)); [exact Hx|now apply close_paren_stop|].
      intros m'. esteps. apply HQ.
    - esteps. apply (call_expr b (t :: x)); [exact Hx|now apply close_paren_stop|]. intros m'. esteps. apply HQ.
  Qed.

  Lemma acc_paren : forall o b e c w (Q : nat * bool -> list token -> Prop),
    is [TK_OPEN_PARENTHESIS] o -> expr b e -> is [TK_CLOSE_PARENTHESIS] c -> stops (minus all_kinds [TK_EQUAL_GREATER_THAN]) w ->
    (forall m, Q (m, true) w) -> acc parse_paren_expression (o :: e ++ c :: w) Q.
  Proof.
    intros o b e c w Q Ho He Hc Hw HQ. apply acc_ok. fold ok. intros F.
    assert (F' : Forall ok (e ++ c :: w)) by now inversion F. clear F.
    pose proof He as He'. destruct He' as [b a p q Ha Hp Hq].
    assert (B : forall t x, a ++ p ++ q = t :: x -> is PUNCT t -> acc parse_paren_expression (o :: (a ++ p ++ q) ++ c :: w) Q).
    { intros t x E Ht. rewrite E in *. pose proof (Forall_head _ _ _ _ _ F') as Ok. eapply acc_paren_call; [exact Ho|exact He| |exact Hc|exact HQ].
      right. split; [now apply punct_noname|]. intros G. refine (disj _ _ _ G Ht _); sub. }
    destruct Ha as [u a Hu Ha|m f Hm Hf].
    { apply (acc_paren_call o u (a ++ p ++ q) b); auto. }
    assert (A : forall t cl, is (minus EXPRS UNARY) t -> m = t :: cl -> cl = [] \/ call cl ->
      acc parse_paren_expression (o :: ((m ++ f) ++ p ++ q) ++ c :: w) Q).
    { intros t cl Ht -> Hcl. rewrite <- !app_assoc in *. cbn [app] in *.
      destruct (rfull TWIG_NAME_REGEX (tk_text t)) eqn:R; [exact (acc_paren_name _ _ _ _ _ _ _ _ _ _ Ho Ht (or_introl R) Hcl Hf Hp Hq Hc Hw HQ)|].
      destruct (mem_kind (tk_kind t) TWO_WORD_TESTS) eqn:T; [exact (acc_paren_name _ _ _ _ _ _ _ _ _ _ Ho Ht (or_intror (mem_is _ _ T)) Hcl Hf Hp Hq Hc Hw HQ)|].
      pose proof (acc_paren_call o t (cl ++ f ++ p ++ q) b c w Q Ho He) as X. cbn [app] in X. rewrite <- !app_assoc in X.
      apply X; [|exact Hc|exact HQ]. right. split; [exact R|]. intros G. apply is_mem in G. congruence. }
    pose proof F' as F. rewrite <- app_assoc in F. destruct Hm as [t H|t H|t l H Hl|o' b' e c' H _ _|l H|o' l c' H _ _|l H].
    - apply (A t []); [eapply is_in; [exact H|sub]|reflexivity|now left].
    - apply (A t []); [|reflexivity|now left].
      eapply is_in; [exact (variable_kind t (proj1 (Forall_head _ _ _ _ _ F)) H)|sub].
    - apply (A t l); [|reflexivity|now right]. destruct H as [H|H]; [|eapply is_in; [exact H|sub]].
      eapply is_in; [exact (variable_kind t (proj1 (Forall_head _ _ _ _ _ F)) H)|sub].
    - eapply B; [reflexivity|eapply is_in; [exact H|sub]].
    - pose proof (str_heads _ _ H) as K. destruct l as [|t l]; [destruct K|]. eapply B; [reflexivity|eapply is_in; [exact K|sub]].
    - eapply B; [reflexivity|eapply is_in; [exact H|sub]].
    - pose proof (hash_heads _ H) as K. destruct l as [|t l]; [destruct K|]. eapply B; [reflexivity|eapply is_in; [exact K|sub]].
  Qed.

  (** ** Operands *)

  Lemma unary_power : forall u, is UNARY u -> exists bp, unary_binding_power (tk_kind u) = Some bp /\ bp <> 0.
  Proof.
    intros u H. unfold is in H. remember (tk_kind u) as k eqn:E. clear E. cbn [UNARY In] in H.
    repeat (destruct H as [H|H]; [subst k; cbn; eexists; split; [reflexivity|lia]|]). destruct H.
  Qed.

  Lemma acc_lhs_unary : forall u a p b q r (Q : option nat -> list token -> Prop), is UNARY u -> operand a -> ops p -> cond b q -> estop b r ->
    (forall m k, left_over q r k -> Q (Some m) k) -> acc parse_twig_expression_lhs (u :: a ++ p ++ q ++ r) Q.
  Proof.
    intros u a p b q r Q Hu Ha Hp Hq Hr HQ. unfold parse_twig_expression_lhs. esteps. unfold parse_unary_expression. esteps.
    destruct (unary_power _ Hu) as (bp & E & Hbp). cbn [tk_kind]. rewrite E. esteps.
    apply acc_call. intros N' L. eapply acc_conseq; [exact (x_bin _ _ (IH N' L) bp a p b q r Hbp Ha Hp Hq Hr)|].
    intros o k [_ Hk]. esteps. now apply HQ.
  Qed.

  Definition LITERALS : list kind := minus EXPRS (TK_OPEN_PARENTHESIS :: UNARY).
  Lemma acc_lhs_literal : forall m f w (Q : option nat -> list token -> Prop), heads LITERALS m -> primary m -> postfix f -> stops PSTOP w ->
    (forall m, Q (Some m) w) -> acc parse_twig_expression_lhs (m ++ f ++ w) Q.
  Proof.
    intros m f w Q Hh Hm Hf Hs HQ. unfold parse_twig_expression_lhs. apply acc_bind. estep. apply acc_bind. estep.
    apply acc_bind, acc_literal; [exact Hm| | |].
    - intros G. destruct m as [|t m]; [destruct Hh|]. refine (disj _ _ _ (heads_is _ _ _ G) (heads_is _ _ _ Hh) _); sub.
    - destruct (postfix_heads _ Hf) as [->|G]; [left; exact Hs|right; now apply heads_app].
    - intros n. apply acc_bind, acc_postfix; [exact Hf|exact Hs|]. intros m'. esteps. apply HQ.
  Qed.

  Lemma acc_lhs_paren : forall o b e c f w (Q : option nat -> list token -> Prop), is [TK_OPEN_PARENTHESIS] o -> expr b e -> is [TK_CLOSE_PARENTHESIS] c ->
    postfix f -> stops PSTOP w -> (forall m, Q (Some m) w) -> acc parse_twig_expression_lhs (o :: e ++ c :: f ++ w) Q.
  Proof.
    intros o b e c f w Q Ho He Hc Hf Hs HQ. unfold parse_twig_expression_lhs. apply acc_bind. estep. apply acc_bind.
    apply (acc_paren o b e c); [exact Ho|exact He|exact Hc|eapply stops_sub; [exact (postfix_stop _ _ _ Hf Hs)|sub]|].
    intros n. esteps. apply acc_postfix; [exact Hf|exact Hs|]. intros m'. esteps. apply HQ.
  Qed.

  Lemma primary_cases : forall m r, Forall ok (m ++ r) -> primary m -> heads LITERALS m \/
    exists o b e c, m = o :: e ++ [c] /\ is [TK_OPEN_PARENTHESIS] o /\ expr b e /\ is [TK_CLOSE_PARENTHESIS] c.
  Proof.
    intros m r F Hm. destruct Hm as [t H|t H|t l H Hl|o b' e c H He Hc|l H|o l c H Hl Hc|l H]; [left..|right|left|left|left].
    - eapply is_in; [exact H|sub].
    - eapply is_in; [exact (variable_kind t (proj1 (Forall_head _ _ _ _ _ F)) H)|sub].
    - destruct H as [H|H]; [|eapply is_in; [exact H|sub]].
      eapply is_in; [exact (variable_kind t (proj1 (Forall_head _ _ _ _ _ F)) H)|sub].
    - eauto 10.
    - eapply heads_in; [exact (str_heads _ _ H)|sub].
    - eapply is_in; [exact H|sub].
    - eapply heads_in; [exact (hash_heads _ H)|sub].
  Qed.

  Lemma acc_lhs : forall a p b q r (Q : option nat -> list token -> Prop), operand a -> ops p -> cond b q -> estop b r ->
    (forall m k, left_over q r k -> Q (Some m) k) -> acc parse_twig_expression_lhs (a ++ p ++ q ++ r) Q.
  Proof.
    intros a p b q r Q Ha Hp Hq Hr HQ. pose proof (ops_stop p b q r Hp Hq Hr) as Hs.
    assert (HQ' : forall m, Q (Some m) (p ++ q ++ r)) by (intros m; apply HQ; right; eauto).
    destruct Ha as [u a Hu Ha|m f Hm Hf].
    - now apply (acc_lhs_unary u a p b q r).
    - rewrite <- app_assoc. apply acc_ok. fold ok. intros F. destruct (primary_cases _ _ F Hm) as [G|(o & b' & e & c & -> & Ho & He & Hc)].
      + now apply acc_lhs_literal.
      + cbn [app]. rewrite <- app_assoc. cbn [app]. now apply (acc_lhs_paren o b' e c f).
  Qed.

  (** ** The contracts hold *)

  Lemma body_bp : forall bp a p b q r (Q : option nat -> list token -> Prop), operand a -> ops p -> cond b q -> estop b r ->
    (forall m k, left_over q r k -> (bp = 0 -> k = r) -> Q (Some m) k) -> acc (body (CExpr bp)) (a ++ p ++ q ++ r) Q.
  Proof.
    intros bp a p b q r Q Ha Hp Hq Hr HQ. cbn [body]. unfold body_expression. apply acc_bind, (acc_lhs _ _ b); [exact Ha|exact Hp|exact Hq|exact Hr|].
    intros m k Hk. esteps. apply (acc_rhs _ _ b q r); [exact Hq|exact Hr|exact Hk|]. intros n k' Hk' E. esteps. now apply HQ.
  Qed.

  Lemma body_none : forall t r, is NOEXPR t -> acc (body (CExpr 0)) (t :: r) (fun o l => o = None /\ l = t :: r).
  Proof.
    intros t r Ht. cbn [body]. unfold body_expression, parse_twig_expression_lhs, parse_twig_literal. apply acc_ok. fold ok. intros F.
    esteps. apply acc_kind. esteps. apply acc_noname.
    - apply punct_noname; [now apply (Forall_head _ _ t [] r)|]. eapply is_in; [exact Ht|sub].
    - intros G. refine (disj _ _ _ G Ht _); sub.
    - esteps. auto.
  Qed.

  Lemma body_arrow : forall n q b x r, variable n -> is [TK_EQUAL_GREATER_THAN] q -> expr b x -> estop b r ->
    acc (body (CExpr 0)) (n :: q :: x ++ r) (fun o l => o <> None /\ l = r).
  Proof.
    intros n q b x r Hn Hq Hx Hr. cbn [body]. unfold body_expression, parse_twig_expression_lhs, parse_twig_literal.
    apply acc_ok. fold ok. intros F. pose proof (variable_kind n (proj1 (Forall_head _ _ n [] _ F)) Hn) as K.
    esteps. apply acc_kind. cbn [l_kind]. esteps. apply acc_name; [left; apply named_regex, Hn|]. intros m. esteps.
    unfold parse_twig_arrow_function. esteps. apply (call_expr b x); [exact Hx|exact Hr|]. intros m'. tidy. esteps.
    apply (acc_postfix [] r); [constructor|exact (estop_pstop _ _ Hr)|]. intros m_. esteps.
    apply acc_rhs_stop; [destruct b; [exact Hr|now apply estop_false]|]. intros m1'. esteps. split; [discriminate|reflexivity].
  Qed.

  Lemma body_test : forall bp s t a p b q r, is TWO_WORD_TESTS s -> operand (t :: a) -> ~ is [TK_OPEN_PARENTHESIS] t -> ops p ->
    cond b q -> estop b r ->
    acc (body (CExpr bp)) (s :: t :: a ++ p ++ q ++ r) (fun o l => o <> None /\ l = r).
  Proof.
    intros bp s t a p b q r Hs Ha Ht Hp Hq Hr. cbn [body]. unfold body_expression, parse_twig_expression_lhs, parse_twig_literal.
    apply acc_ok. fold ok. intros F.
    assert (K : is (minus EXPRS [TK_OPEN_PARENTHESIS]) t).
    { apply is_minus; [|exact Ht]. apply (heads_is EXPRS t a). apply (operand_heads (t :: a) (p ++ q ++ r)); [now inversion F|exact Ha]. }
    assert (X : estop true r) by (destruct b; [exact Hr|now apply estop_false]).
    esteps. apply acc_kind. cbn [l_kind]. esteps. apply acc_name; [now right|]. intros m. esteps.
    replace (match tk_kind s with TK_SAME_AS | TK_DIVISIBLE_BY => n <- parse_twig_test_implicit_argument m ;; Ret (Some n) | _ => Ret (Some m) end)
      with (n <- parse_twig_test_implicit_argument m ;; Ret (Some n)).
    2:{ destruct Hs as [E|[E|[]]]; rewrite <- E; reflexivity. }
    unfold parse_twig_test_implicit_argument. esteps.
    assert (E : t :: a ++ p ++ q ++ r = ((t :: a) ++ p ++ q) ++ r) by (cbn [app]; now rewrite <- !app_assoc).
    rewrite E. apply (call_expr b); [now constructor|exact Hr|]. intros m'. tidy. esteps.
    apply (acc_postfix [] r); [constructor|exact (estop_pstop _ _ Hr)|]. intros m_. esteps.
    apply acc_rhs_stop; [exact X|]. intros m1'. esteps. split; [discriminate|reflexivity].
  Qed.
End Step.

Theorem exprs_ok : forall dbg N, Exprs dbg N.
Proof.
  intros dbg N. induction N as [N IH] using lt_wf_ind. split.
  - intros b x r Hx Hr. destruct Hx as [b a p q Ha Hp Hq]. rewrite <- !app_assoc. apply (body_bp dbg N IH 0 a p b q r); auto.
    intros m k _ E. rewrite (E eq_refl). split; [discriminate|reflexivity].
  - apply body_arrow, IH.
  - apply body_none.
  - intros bp a p b q r _ Ha Hp Hq Hr. apply (body_bp dbg N IH bp a p b q r); auto. intros m k Hk _. split; [discriminate|exact Hk].
  - apply body_test, IH.
Qed.
