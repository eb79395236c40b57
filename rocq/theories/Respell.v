(** Well-formed templates stay well-formed when white space changes and when && and || are spelled and and or. *)
From Coq Require Import NArith String Bool Arith Lia List.
Import ListNotations.
From Verif Require Import Text Kind Lexer LexerProofs ParserApi Machine TreeMachine AccSpec.
Local Open Scope list_scope.

(** * Spec *)

(** The same token somewhere else, or another spelling of a logical operator. *)
Definition alike (t t' : token) : Prop :=
  (tk_kind t = tk_kind t' /\ tk_text t = tk_text t') \/
  (tk_kind t = TK_DOUBLE_AMPERSAND /\ tk_text t = txt "&&" /\ tk_kind t' = TK_AND /\ tk_text t' = txt "and") \/
  (tk_kind t = TK_DOUBLE_PIPE /\ tk_text t = txt "||" /\ tk_kind t' = TK_OR /\ tk_text t' = txt "or").
(** Token lists without white space that are alike one by one; what stands directly behind a < or a colon
    does so in the other list. *)
Inductive respelled : list token -> list token -> Prop :=
| respelled_nil : respelled [] []
| respelled_one t t' : alike t t' -> respelled [t] [t']
| respelled_cons t t' u u' l l' : alike t t' -> (is [TK_LESS_THAN; TK_COLON] t -> tk_end t = tk_start u -> tk_end t' = tk_start u') ->
    respelled (u :: l) (u' :: l') -> respelled (t :: u :: l) (t' :: u' :: l').

(** * Taking lists apart *)
Lemma r_nil l : respelled [] l -> l = [].
Proof. intros H. now inversion H. Qed.
Lemma r_cons t l m : respelled (t :: l) m -> exists t' l', m = t' :: l' /\ alike t t' /\
  (forall u r, l = u :: r -> is [TK_LESS_THAN; TK_COLON] t -> tk_end t = tk_start u -> exists u' r', l' = u' :: r' /\ tk_end t' = tk_start u') /\ respelled l l'.
Proof.
  intros H. inversion H as [|? t' A|? t' u u' r r' A G R]; subst.
  - exists t', []. split; [reflexivity|]. split; [exact A|]. split; [intros u r X; discriminate X|constructor].
  - exists t', (u' :: r'). split; [reflexivity|]. split; [exact A|]. split; [|exact R]. intros ? ? X I E. injection X as <- <-. eauto.
Qed.
Lemma r_app x : forall y m, respelled (x ++ y) m -> exists x' y', m = x' ++ y' /\ respelled x x' /\ respelled y y'.
Proof.
  induction x as [|t x IH]; intros y m H; cbn [app] in H.
  - exists [], m. split; [reflexivity|]. split; [constructor|exact H].
  - apply r_cons in H as (t' & l' & -> & A & G & R). apply IH in R as (x' & y' & -> & Rx & Ry).
    exists (t' :: x'), y'. split; [reflexivity|]. split; [|exact Ry]. destruct x as [|u x].
    + apply r_nil in Rx. subst x'. now constructor.
    + destruct x' as [|u' x']; [inversion Rx|]. constructor; [exact A| |exact Rx]. intros I E.
      destruct (G u (x ++ y) eq_refl I E) as (v & r & X & Y). injection X as -> _. exact Y.
Qed.

(** * Single tokens *)
Definition mem (k : kind) (ks : list kind) : bool := existsb (kind_eqb k) ks.
Definition open_to (ks : list kind) : bool :=
  (negb (mem TK_DOUBLE_AMPERSAND ks) || mem TK_AND ks) && (negb (mem TK_DOUBLE_PIPE ks) || mem TK_OR ks).
Definition closed_to (ks : list kind) : bool :=
  (negb (mem TK_AND ks) || mem TK_DOUBLE_AMPERSAND ks) && (negb (mem TK_OR ks) || mem TK_DOUBLE_PIPE ks).
Lemma mem_In k ks : mem k ks = true <-> In k ks.
Proof.
  unfold mem. rewrite existsb_exists. split; [intros (x & Hx & E); apply kind_eqb_eq in E; now subst|intros H; exists k; split; [exact H|now apply kind_eqb_eq]].
Qed.
Lemma is_alike ks t t' : open_to ks = true -> alike t t' -> is ks t -> is ks t'.
Proof.
  intros O A I. unfold is in *. apply andb_true_iff in O as [O1 O2]. destruct A as [[E _]|[(E & _ & E' & _)|(E & _ & E' & _)]].
  - now rewrite <- E.
  - rewrite E in I. apply mem_In in I. rewrite I in O1. rewrite E'. now apply mem_In.
  - rewrite E in I. apply mem_In in I. rewrite I in O2. rewrite E'. now apply mem_In.
Qed.
Lemma not_alike ks t t' : closed_to ks = true -> alike t t' -> ~ is ks t -> ~ is ks t'.
Proof.
  intros O A N I. apply N. unfold is in *. apply andb_true_iff in O as [O1 O2]. destruct A as [[E _]|[(E & _ & E' & _)|(E & _ & E' & _)]].
  - now rewrite E.
  - rewrite E' in I. apply mem_In in I. rewrite I in O1. rewrite E. now apply mem_In.
  - rewrite E' in I. apply mem_In in I. rewrite I in O2. rewrite E. now apply mem_In.
Qed.
Lemma back_alike ks t t' : closed_to ks = true -> alike t t' -> is ks t' -> is ks t.
Proof.
  intros O A I. unfold is in *. apply andb_true_iff in O as [O1 O2]. destruct A as [[E _]|[(E & _ & E' & _)|(E & _ & E' & _)]].
  - now rewrite E.
  - rewrite E' in I. apply mem_In in I. rewrite I in O1. rewrite E. now apply mem_In.
  - rewrite E' in I. apply mem_In in I. rewrite I in O2. rewrite E. now apply mem_In.
Qed.
(** Tokens that are no logical operator stay. *)
Lemma stays t t' : alike t t' -> tk_text t <> txt "&&" -> tk_text t <> txt "||" -> tk_kind t = tk_kind t' /\ tk_text t = tk_text t'.
Proof. intros [A|[(_ & E & _)|(_ & E & _)]] N1 N2; [exact A|now destruct (N1 E)|now destruct (N2 E)]. Qed.
Lemma starts t t' c w : alike t t' -> tk_text t = c :: w -> (c <> 38)%N -> (c <> 124)%N -> tk_kind t = tk_kind t' /\ tk_text t = tk_text t'.
Proof. intros A E N1 N2. apply stays; [exact A| |]; rewrite E; intros X; injection X as X _; auto. Qed.
Lemma kind_stays ks t t' : mem TK_DOUBLE_AMPERSAND ks = false -> mem TK_DOUBLE_PIPE ks = false -> alike t t' -> is ks t -> tk_kind t = tk_kind t' /\ tk_text t = tk_text t'.
Proof.
  intros M1 M2 [A|[(E & _)|(E & _)]] I; [exact A|..]; unfold is in I; rewrite E in I; apply mem_In in I; congruence.
Qed.
Lemma name_start_not c : name_start c -> (c <> 38)%N /\ (c <> 124)%N.
Proof. unfold name_start, letter. lia. Qed.
Lemma named_same t t' : alike t t' -> named t -> tk_kind t = tk_kind t' /\ tk_text t = tk_text t'.
Proof. intros A (_ & c & w & E & S & _). apply name_start_not in S as [S1 S2]. exact (starts t t' c w A E S1 S2). Qed.
Lemma named_alike t t' : alike t t' -> named t -> named t'.
Proof. intros A N. destruct (named_same t t' A N) as [E1 E2]. destruct N as (K & c & w & E & S). split; [congruence|]. exists c, w. split; [congruence|exact S]. Qed.
Lemma variable_alike t t' : alike t t' -> variable t -> variable t'.
Proof. intros A [N V]. destruct (named_same t t' A N) as [E1 _]. split; [exact (named_alike t t' A N)|]. now rewrite <- E1. Qed.

(** * Expressions *)
Scheme expr_ri := Minimality for expr Sort Prop
  with cond_ri := Minimality for cond Sort Prop
  with operand_ri := Minimality for operand Sort Prop
  with ops_ri := Minimality for ops Sort Prop
  with primary_ri := Minimality for primary Sort Prop
  with postfix_ri := Minimality for postfix Sort Prop
  with filter_call_ri := Minimality for filter_call Sort Prop
  with call_ri := Minimality for call Sort Prop
  with args_ri := Minimality for args Sort Prop
  with arg_ri := Minimality for arg Sort Prop
  with exprs_ri := Minimality for exprs Sort Prop
  with hash_ri := Minimality for hash Sort Prop
  with pairs_ri := Minimality for pairs Sort Prop
  with pair_ri := Minimality for pair Sort Prop
  with key_ri := Minimality for key Sort Prop
  with str_ri := Minimality for str Sort Prop
  with chars_ri := Minimality for chars Sort Prop.
Combined Scheme expr_family from expr_ri, cond_ri, operand_ri, ops_ri, primary_ri, postfix_ri, filter_call_ri, call_ri, args_ri, arg_ri, exprs_ri, hash_ri, pairs_ri, pair_ri, key_ri, str_ri, chars_ri.

Ltac apart :=
  repeat match goal with
  | H : respelled [] _ |- _ => apply r_nil in H; subst
  | H : respelled (_ :: _) _ |- _ =>
    let t := fresh "t'" in let l := fresh "l'" in let A := fresh "A" in let G := fresh "G" in
    apply r_cons in H; destruct H as (t & l & -> & A & G & H)
  | H : respelled (_ ++ _) _ |- _ =>
    let x := fresh "x'" in let y := fresh "y'" in let R := fresh "R" in
    apply r_app in H; destruct H as (x & y & -> & R & H)
  end.
Ltac carry :=
  repeat match goal with
  | A : alike ?t ?t', I : is ?ks ?t |- _ =>
    lazymatch goal with _ : is ks t' |- _ => fail | _ => pose proof (is_alike ks t t' eq_refl A I) end
  | A : alike ?t ?t', I : ~ is ?ks ?t |- _ =>
    lazymatch goal with _ : ~ is ks t' |- _ => fail | _ => pose proof (not_alike ks t t' eq_refl A I) end
  | A : alike ?t ?t', I : named ?t |- _ =>
    lazymatch goal with _ : named t' |- _ => fail | _ => pose proof (named_alike t t' A I) end
  | A : alike ?t ?t', I : variable ?t |- _ =>
    lazymatch goal with _ : variable t' |- _ => fail | _ => pose proof (variable_alike t t' A I) end
  | IH : forall l', respelled ?x l' -> ?J, R : respelled ?x ?x' |- _ => specialize (IH x' R); cbv beta in IH
  end.
Definition P (J : list token -> Prop) (l : list token) : Prop := forall l', respelled l l' -> J l'.
Lemma expressions_respelled :
  (forall b l, expr b l -> P (expr b) l) /\ (forall b l, cond b l -> P (cond b) l) /\ (forall l, operand l -> P operand l) /\
  (forall l, ops l -> P ops l) /\ (forall l, primary l -> P primary l) /\ (forall l, postfix l -> P postfix l) /\
  (forall l, filter_call l -> P filter_call l) /\ (forall l, call l -> P call l) /\ (forall l, args l -> P args l) /\
  (forall l, arg l -> P arg l) /\ (forall l, exprs l -> P exprs l) /\ (forall l, hash l -> P hash l) /\
  (forall l, pairs l -> P pairs l) /\ (forall l, pair l -> P pair l) /\ (forall l, key l -> P key l) /\
  (forall i l, str i l -> P (str i) l) /\ (forall q i l, chars q i l -> In q QUOTES -> P (chars q i) l).
Proof.
  apply (expr_family (fun b l => P (expr b) l) (fun b l => P (cond b) l) (P operand) (P ops) (P primary) (P postfix) (P filter_call) (P call)
    (P args) (P arg) (P exprs) (P hash) (P pairs) (P pair) (P key) (fun i l => P (str i) l) (fun q i l => In q QUOTES -> P (chars q i) l));
    unfold P; intros; repeat match goal with H : _ \/ _ |- _ => destruct H end;
    try (match goal with R : respelled ?l _ |- _ => is_var l; eauto using args, arg, exprs, pairs, pair, key, primary end; fail).
  all: try (apart; carry;
    solve [ first [ econstructor 1; eauto; fail | econstructor 2; eauto; fail | econstructor 3; eauto; fail | econstructor 4; eauto; fail
                  | econstructor 5; eauto; fail | econstructor 6; eauto; fail | econstructor 7; eauto; fail | econstructor 8; eauto; fail ] ]).
  - match goal with R : respelled (?o :: ?s :: ?t :: ?a ++ ?p) _ |- _ => change (respelled (o :: s :: (t :: a) ++ p) l') in R;
      apply r_cons in R as (o' & ? & -> & Ao & _ & R); apply r_cons in R as (s' & ? & -> & As & _ & R); apply r_app in R as (y & p' & -> & Ry & Rp) end.
    pose proof Ry as Ry2. apply r_cons in Ry2 as (t' & a' & -> & At & _ & _). carry.
    change ((t' :: a') ++ p') with (t' :: a' ++ p'). apply ops_test; assumption.
  - apart. carry. apply str_double; auto. match goal with IH : In _ QUOTES -> _ |- _ => apply IH; [now left|assumption] end.
  - apart. carry. apply str_single; auto. match goal with IH : In _ QUOTES -> _ |- _ => apply IH; [right; now left|assumption] end.
  - match goal with Q : In ?q QUOTES |- _ => assert (C : closed_to [q] = true) by (destruct Q as [<-|[<-|[]]]; reflexivity) end.
    match goal with R : respelled (?t :: ?l) _ |- _ => apply r_cons in R as (t' & m & -> & A & _ & R) end.
    apply chars_token.
    + eapply not_alike; eauto.
    + intros I. apply (back_alike [TK_BACKWARD_SLASH] _ _ eq_refl A) in I.
      match goal with X : is [TK_BACKWARD_SLASH] _ -> exists _, _ |- _ => destruct (X I) as (u & l'' & -> & N) end.
      match goal with R : respelled (_ :: _) _ |- _ => apply r_cons in R as (u' & m' & -> & Au & _ & _) end.
      exists u', m'. split; [reflexivity|]. eapply not_alike; eauto.
    + intros I u' m' ->. apply (back_alike [TK_HASHTAG] _ _ eq_refl A) in I.
      match goal with R : respelled ?l _ |- _ => destruct l as [|u l0]; [inversion R|]; apply r_cons in R as (u2 & m2 & X & Au & _ & _) end.
      injection X as <- <-. apply (not_alike [TK_OPEN_CURLY] _ _ eq_refl Au). eauto.
    + eauto.
  - match goal with Q : In ?q QUOTES |- _ => assert (C : open_to [q] = true) by (destruct Q as [<-|[<-|[]]]; reflexivity) end.
    apart. apply chars_escape; eauto using is_alike.
Qed.
Lemma expr_r b l l' : expr b l -> respelled l l' -> expr b l'.
Proof. intros E. exact (proj1 expressions_respelled b l E l'). Qed.
Lemma call_r l l' : call l -> respelled l l' -> call l'.
Proof. intros E. exact (proj1 (proj2 (proj2 (proj2 (proj2 (proj2 (proj2 (proj2 expressions_respelled))))))) l E l'). Qed.
Lemma filter_call_r l l' : filter_call l -> respelled l l' -> filter_call l'.
Proof. intros E. exact (proj1 (proj2 (proj2 (proj2 (proj2 (proj2 (proj2 expressions_respelled)))))) l E l'). Qed.
Lemma hash_r l l' : hash l -> respelled l l' -> hash l'.
Proof. intros E. exact (proj1 (proj2 (proj2 (proj2 (proj2 (proj2 (proj2 (proj2 (proj2 (proj2 (proj2 (proj2 expressions_respelled))))))))))) l E l'). Qed.
Lemma str_r i l l' : str i l -> respelled l l' -> str i l'.
Proof.
  intros E. exact (proj1 (proj2 (proj2 (proj2 (proj2 (proj2 (proj2 (proj2 (proj2 (proj2 (proj2 (proj2 (proj2 (proj2 (proj2 (proj2
    expressions_respelled))))))))))))))) i l E l').
Qed.

(** * Pieces of tags *)
Ltac carry2 :=
  carry; repeat match goal with
  | E : expr ?b ?x, R : respelled ?x ?x' |- _ => lazymatch goal with _ : expr b x' |- _ => fail | _ => pose proof (expr_r b x x' E R) end
  | E : call ?x, R : respelled ?x ?x' |- _ => lazymatch goal with _ : call x' |- _ => fail | _ => pose proof (call_r x x' E R) end
  | E : filter_call ?x, R : respelled ?x ?x' |- _ => lazymatch goal with _ : filter_call x' |- _ => fail | _ => pose proof (filter_call_r x x' E R) end
  | E : hash ?x, R : respelled ?x ?x' |- _ => lazymatch goal with _ : hash x' |- _ => fail | _ => pose proof (hash_r x x' E R) end
  | E : str ?i ?x, R : respelled ?x ?x' |- _ => lazymatch goal with _ : str i x' |- _ => fail | _ => pose proof (str_r i x x' E R) end
  end.
Lemma var_statement_r l l' : var_statement l -> respelled l l' -> var_statement l'.
Proof. intros (o & b & e & c & -> & O & E & C) R. apart. carry2. unfold var_statement. do 4 eexists. split; [reflexivity|]. eauto. Qed.
Lemma rule_names_r l : rule_names l -> forall l', respelled l l' -> rule_names l'.
Proof. intros H. induction H; intros l' R'; apart; carry2; eauto using rule_names. Qed.
Lemma Forall_r (Q Q' : token -> Prop) l : (forall t t', alike t t' -> Q t -> Q' t') -> Forall Q l -> forall l', respelled l l' -> Forall Q' l'.
Proof. intros H F. induction F; intros l' R; apart; constructor; eauto. Qed.
Lemma comment_inner_r close l l' : closed_to close = true -> comment_inner close l -> respelled l l' -> comment_inner close l'.
Proof.
  intros C [[F N]|(d & r & -> & D & X)] R.
  - left. split; [exact (Forall_r _ _ l (fun t t' => not_alike close t t' C) F l' R)|]. intros t' m ->. destruct l as [|t l]; [inversion R|].
    apply r_cons in R as (u & r & E & A & _ & _). injection E as <- <-. exact (not_alike DIRECTIVES t t' eq_refl A (N t l eq_refl)).
  - right. apart. carry2. exists t', l'0. split; [reflexivity|]. split; [assumption|]. eapply rule_names_r; eauto.
Qed.
Lemma comment_statement_r l l' : comment_statement l -> respelled l l' -> comment_statement l'.
Proof.
  intros (o & i & c & -> & O & I & C) R. apart. carry2. unfold comment_statement. do 3 eexists. split; [reflexivity|]. split; [eassumption|].
  split; [eapply (comment_inner_r COMMENT_CLOSE); eauto|assumption].
Qed.
Lemma tag_r kw i l l' : open_to kw = true -> tag kw i l -> respelled l l' -> exists i', respelled i i' /\ tag kw i' l'.
Proof.
  intros K (o & k & c & -> & O & X & C) R. apart. exists x'. split; [assumption|]. unfold tag. do 3 eexists. split; [reflexivity|].
  split; [eapply (is_alike TAG_OPEN); eauto|]. split; [eapply is_alike; eauto|eapply (is_alike TAG_CLOSE); eauto].
Qed.
Lemma override_r l l' : override l -> respelled l l' -> override l'.
Proof. intros [(n & -> & N)|(n & a & m & -> & N & A & M)] R; apart; carry2; [left; eauto|right; do 3 eexists; eauto]. Qed.
Lemma overrides_r l : overrides l -> forall l', respelled l l' -> overrides l'.
Proof. intros H. induction H; intros l' R'; apart; carry2; eauto using overrides, override_r. Qed.
Lemma name_list_r n l : name_list n l -> forall l', respelled l l' -> name_list n l'.
Proof. intros H. induction H; intros l' R'; apart; carry2; eauto using name_list. Qed.
Lemma expr_list_r n l : expr_list n l -> forall l', respelled l l' -> expr_list n l'.
Proof. intros H. induction H; intros l' R'; apart; carry2; eauto using expr_list. Qed.
Lemma prop_declaration_r l l' : prop_declaration l -> respelled l l' -> prop_declaration l'.
Proof. intros H R'. destruct H; apart; carry2; eauto using prop_declaration. Qed.
Lemma props_r l : props l -> forall l', respelled l l' -> props l'.
Proof. intros H. induction H; intros l' R'; apart; carry2; eauto using props, prop_declaration_r. Qed.
Lemma optional_r (Q Q' : list token -> Prop) l l' : (forall m m', Q m -> respelled m m' -> Q' m') -> optional Q l -> respelled l l' -> optional Q' l'.
Proof. intros H [->|X] R; [left; now apply r_nil|right; eauto]. Qed.
Ltac opt := match goal with R : respelled ?l ?l' |- optional _ ?l' => eapply optional_r; [| |exact R]; [|eassumption] end.
Lemma keyword_r k l l' : open_to [k] = true -> keyword k l -> respelled l l' -> keyword k l'.
Proof. intros K (t & -> & I) R. apart. eexists. split; [reflexivity|]. eapply is_alike; eauto. Qed.
Lemma with_value_r k l l' : open_to [k] = true -> with_value k l -> respelled l l' -> with_value k l'.
Proof. intros K (t & b & x & -> & I & E) R. apart. carry2. do 3 eexists. split; [reflexivity|]. split; [eapply is_alike; eauto|eauto]. Qed.
Lemma include_options_r l l' : include_options l -> respelled l l' -> include_options l'.
Proof.
  intros (i & w & o & -> & I & W & O) R. apart. do 3 eexists. split; [reflexivity|].
  split; [eapply optional_r; [|exact I|eassumption]; intros; now apply (keyword_r _ m)|].
  split; [eapply optional_r; [|exact W|eassumption]; intros; now apply (with_value_r _ m)|eapply optional_r; [|exact O|eassumption]; intros; now apply (keyword_r _ m)].
Qed.
Lemma in_parens_r k l l' : open_to [k] = true -> in_parens k l -> respelled l l' -> in_parens k l'.
Proof.
  intros K (t & o & b & x & c & -> & I & O & E & C) R. apart. carry2. do 5 eexists. split; [reflexivity|]. split; [eapply is_alike; eauto|].
  split; [|split]; eassumption.
Qed.
Lemma filters_r l : filters l -> forall l', respelled l l' -> filters l'.
Proof. intros H. induction H; intros l' R'; apart; carry2; eauto using filters. Qed.

(** * Tags *)
Lemma simple_open k i : simple_tag k i -> open_to k = true.
Proof. intros H. destruct H; reflexivity. Qed.
Lemma simple_tag_r k i i' : simple_tag k i -> respelled i i' -> simple_tag k i'.
Proof.
  intros H R'. destruct H; try solve [apart; carry2; eauto using simple_tag].
  - apart. carry2. eapply simple_from; eauto using overrides_r.
  - apart. carry2. eapply simple_use_with; eauto using overrides_r.
  - apart. eapply simple_include; eauto using expr_r, include_options_r.
  - constructor. eauto using props_r.
  - apart. eapply simple_icon; eauto using expr_r. opt. intros. now apply (with_value_r _ m).
  - apart. eapply simple_thumbnails; eauto using expr_r. opt. intros. now apply (with_value_r _ m).
  - apart. carry2. eapply simple_set; eauto using name_list_r, expr_list_r.
Qed.
Lemma word_same t t' : alike t t' -> is [TK_WORD] t -> tk_text t = tk_text t'.
Proof. intros A I. exact (proj2 (kind_stays [TK_WORD] t t' eq_refl eq_refl A I)). Qed.
Lemma end_name_r n n' l l' : alike n n' -> is [TK_WORD] n ->
  optional (fun l => exists m, l = [m] /\ is [TK_WORD] m /\ tk_text m = tk_text n) l -> respelled l l' ->
  optional (fun l => exists m, l = [m] /\ is [TK_WORD] m /\ tk_text m = tk_text n') l'.
Proof.
  intros A N O R. eapply optional_r; [|exact O|exact R]. intros ? ? (m & -> & W & E) Rm. apart. carry2. eexists. split; [reflexivity|].
  split; [assumption|]. rewrite <- (word_same _ _ A N), <- E. symmetry. eapply word_same; eauto.
Qed.
Lemma paired_open f k i e E : paired_tag f k i e E -> open_to [k] = true /\ open_to [e] = true.
Proof.
  intros H. destruct H as [f k e H| | | | | | |f k e b x l H| | | |]; try (split; reflexivity).
  - destruct H as [H|[H|[H|[]]]]; injection H as <- <-; split; reflexivity.
  - destruct H as [H|[H|[]]]; injection H as <- <-; split; reflexivity.
Qed.
Lemma paired_tag_r f k i e E i' : paired_tag f k i e E -> respelled i i' ->
  exists E', paired_tag f k i' e E' /\ forall j j', E j -> respelled j j' -> E' j'.
Proof.
  assert (Z : forall j j' : list token, j = [] -> respelled j j' -> j' = []) by (intros ? ? -> R; now apply r_nil).
  intros H R'. destruct H.
  - apart. eexists. split; [now apply paired_plain|exact Z].
  - eexists. split; [apply paired_autoescape|exact Z]. opt. intros m m' [X|X] Rm; [left; eauto using str_r|right; now apply (keyword_r _ m)].
  - apart. eexists. split; [apply paired_with_plain|exact Z].
  - apart. carry2. eexists. split; [eapply paired_with; [eassumption|]|exact Z]. opt. intros. now apply (keyword_r _ m).
  - apart. carry2. eexists. split; [eapply paired_cache; [eassumption| |]|exact Z]; (opt); intros; now apply (in_parens_r _ m).
  - apart. carry2. eexists. split; [apply paired_macro; assumption|]. intros j j' J Rj. eapply end_name_r; eauto.
  - apart. carry2. eexists. split; [apply paired_apply; [assumption| |]|exact Z]; [|eauto using filters_r]. opt. intros. eauto using call_r.
  - apart. carry2. eexists. split; [eapply paired_embed; [eassumption|eassumption|]|exact Z]. eauto using include_options_r.
  - apart. carry2. eexists. split; [now apply paired_set|exact Z].
  - apart. carry2. eexists. split; [now apply paired_block|]. intros j j' J Rj. eapply end_name_r; eauto.
  - apart. carry2. eexists. split; [apply paired_component; [assumption|assumption|]|exact Z]. opt.
    intros ? ? (w & h & -> & W & Hh) Rm. apart. carry2. do 2 eexists. split; [reflexivity|]. split; assumption.
  - eexists. split; [apply paired_feature; eauto using str_r|exact Z].
Qed.
Lemma for_inside_r l l' : for_inside l -> respelled l l' -> for_inside l'.
Proof.
  intros (v & i & b & x & -> & V & I & E) R. apart. carry2. do 4 eexists. split; [reflexivity|]. split; [|split; eassumption].
  destruct V as [(t & -> & N)|(t & c & u & -> & N & C & U)]; apart; carry2; [left; eauto|right; do 3 eexists; eauto].
Qed.

(** * HTML *)
Lemma letter_not c : letter c -> (c <> 38)%N /\ (c <> 124)%N.
Proof. unfold letter. lia. Qed.
Lemma tag_name_same n n' : alike n n' -> tag_name n -> tk_kind n = tk_kind n' /\ tk_text n = tk_text n'.
Proof.
  intros A [K|(_ & c & w & E & L & _)].
  - exact (kind_stays [TK_TWIG_COMPONENT_NAME] n n' eq_refl eq_refl A (or_introl (eq_sym K))).
  - apply letter_not in L as [L1 L2]. exact (starts n n' c w A E L1 L2).
Qed.
Lemma tag_name_r n n' : tk_kind n = tk_kind n' -> tk_text n = tk_text n' -> tag_name n -> tag_name n'.
Proof. unfold tag_name. now intros -> ->. Qed.
Lemma attribute_text_not s c w : attribute_text s -> s = c :: w -> (c <> 38)%N /\ (c <> 124)%N.
Proof.
  intros (d & v & _ & L & [E|(x & X & E)]) ->; injection E as -> _; [now apply letter_not|].
  cbn [In] in X. intuition (subst; discriminate).
Qed.
Lemma attribute_name_r l l' : attribute_name l -> respelled l l' -> attribute_name l'.
Proof.
  intros H R. destruct H as [t K T|c t C G T].
  - apart. assert (X : tk_kind t = tk_kind t' /\ tk_text t = tk_text t').
    { destruct (tk_text t) as [|x w] eqn:E; [destruct T as (? & ? & _ & _ & [T|(? & _ & T)]); discriminate T|].
      destruct (attribute_text_not _ x w T eq_refl). rewrite <- E. eapply starts; eauto. }
    destruct X as [X1 X2]. constructor; congruence.
  - apply r_cons in R as (c' & m & -> & A & Gl & R). apply r_cons in R as (t' & m' & -> & At & _ & R). apply r_nil in R. subst m'.
    destruct (Gl t [] eq_refl) as (u & r & Y & Z); [destruct C as [C|[]]; right; left; exact C|exact G|]. injection Y as <- <-.
    assert (X : tk_kind t = tk_kind t' /\ tk_text t = tk_text t').
    { destruct T as (x & w & _ & L & [T|(d & _ & T)]).
      - injection T as <- _. unfold letter in L. lia.
      - injection T as _ T. apply letter_not in L as [L1 L2]. exact (starts t t' x w At T L1 L2). }
    destruct X as [_ X2]. constructor; [exact (is_alike [TK_COLON] c c' eq_refl A C)|exact Z|now rewrite <- X2].
Qed.
Lemma plain_r f t t' : alike t t' -> plain f t -> plain f t'.
Proof. intros A. destruct f; unfold plain; try (apply not_alike; [reflexivity|exact A]). auto. Qed.
Scheme block_ri := Minimality for block Sort Prop with branches_ri := Minimality for branches Sort Prop
  with content_ri := Minimality for content Sort Prop with statement_ri := Minimality for statement Sort Prop
  with item_ri := Minimality for item Sort Prop with raw_content_ri := Minimality for raw_content Sort Prop
  with value_ri := Minimality for value Sort Prop.
Combined Scheme template_family from block_ri, branches_ri, content_ri, statement_ri, item_ri, raw_content_ri, value_ri.
Lemma lower_same n n' : tk_text n = tk_text n' -> lower n = lower n'.
Proof. unfold lower. now intros ->. Qed.
Lemma and_no_raw n : In (lower n) RAW -> tk_text n <> txt "and" /\ tk_text n <> txt "or".
Proof.
  unfold lower. intros H. split; intros E; rewrite E in H; revert H; vm_compute; intros H; repeat (destruct H as [H|H]; [discriminate H|]); destruct H.
Qed.
Lemma nil_r i' : respelled [] i' -> i' = [].
Proof. apply r_nil. Qed.
Lemma templates_respelled :
  (forall f l, block f l -> P (block f) l) /\ (forall f l, branches f l -> P (branches f) l) /\ (forall f l, content f l -> P (content f) l) /\
  (forall f l, statement f l -> P (statement f) l) /\ (forall f l, item f l -> P (item f) l) /\
  (forall n l, raw_content n l -> forall n', tk_kind n = tk_kind n' -> tk_text n = tk_text n' -> In (lower n) RAW -> P (raw_content n') l) /\
  (forall l, value l -> P value l).
Proof.
  apply (template_family (fun f l => P (block f) l) (fun f l => P (branches f) l) (fun f l => P (content f) l) (fun f l => P (statement f) l)
    (fun f l => P (item f) l) (fun n l => forall n', tk_kind n = tk_kind n' -> tk_text n = tk_text n' -> In (lower n) RAW -> P (raw_content n') l) (P value)); unfold P; intros.
  all: repeat match goal with
    | R : respelled (_ ++ _) _ |- _ => let x := fresh "x'" in let y := fresh "y'" in apply r_app in R; destruct R as (x & y & -> & ? & R)
    end.
  all: repeat match goal with
    | T : tag [?k] ?i ?o, R : respelled ?o ?o' |- _ =>
      is_constructor k; let i' := fresh "i'" in destruct (tag_r [k] i o o' eq_refl T R) as (i' & ? & ?); clear T
    | R : respelled [] _ |- _ => apply r_nil in R; subst
    end.
  all: try solve [eauto 6 using block, branches, content, statement, item, value, expr_r, for_inside_r, comment_statement_r, var_statement_r, attribute_name_r].
  all: try solve [apart; carry2; eauto using item, value, plain_r, var_statement_r].
  - match goal with S : simple_tag ?k ?i, T : tag ?k ?i ?l, R : respelled ?l _ |- _ =>
      destruct (tag_r k i l _ (simple_open k i S) T R) as (i' & Ri & T'); exact (block_simple f k i' _ (simple_tag_r k i i' S Ri) T') end.
  - match goal with Q : paired_tag ?f ?k ?i ?e ?E, T : tag [?k] ?i ?o, R : respelled ?o _, U : tag [?e] ?j ?c, V : respelled ?c _ |- _ =>
      destruct (paired_open f k i e E Q) as [Ok Oe]; destruct (tag_r [k] i o _ Ok T R) as (i' & Ri & T');
      destruct (tag_r [e] j c _ Oe U V) as (j' & Rj & U'); destruct (paired_tag_r f k i e E i' Q Ri) as (E' & Q' & HE) end.
    eapply block_paired; eauto.
  - apart. match goal with N : tag_name n, A : alike n ?n' |- _ => destruct (tag_name_same n n' A N) as [K X]; pose proof (tag_name_r n n' K X N) end.
    match goal with E : tk_end o = tk_start n, I : is [TK_LESS_THAN] o, G : forall u r, n :: _ = u :: r -> _ |- _ =>
      destruct (G n _ eq_refl (or_introl (match I with or_introl e => e | or_intror f => match f with end end)) E) as (u & r & Y & Z); injection Y as <- <- end.
    match goal with E : tk_text m = tk_text n, A : alike m ?m' |- _ =>
      assert (M : tk_kind m = tk_kind m' /\ tk_text m = tk_text m') by (apply (tag_name_same m m' A); eapply tag_name_r; [| |eassumption]; congruence) end.
    destruct M as [M1 M2]. carry. rewrite (lower_same _ _ X) in *. apply item_element; auto; congruence.
  - apart. match goal with N : tag_name n, A : alike n ?n' |- _ => destruct (tag_name_same n n' A N) as [K X]; pose proof (tag_name_r n n' K X N) end.
    match goal with E : tk_end o = tk_start n, I : is [TK_LESS_THAN] o, G : forall u r, n :: _ = u :: r -> _ |- _ =>
      destruct (G n _ eq_refl (or_introl (match I with or_introl e => e | or_intror f => match f with end end)) E) as (u & r & Y & Z); injection Y as <- <- end.
    match goal with E : tk_text m = tk_text n, A : alike m ?m' |- _ =>
      assert (M : tk_kind m = tk_kind m' /\ tk_text m = tk_text m') by (apply (tag_name_same m m' A); eapply tag_name_r; [| |eassumption]; congruence) end.
    destruct M as [M1 M2]. carry.
    match goal with IH : forall n', tk_kind n = tk_kind n' -> _ |- _ => pose proof (fun l' => IH _ K X ltac:(assumption) l') as RC end.
    rewrite (lower_same _ _ X) in *. apply item_raw_element; auto; congruence.
  - apart. match goal with N : tag_name n, A : alike n ?n' |- _ => destruct (tag_name_same n n' A N) as [K X]; pose proof (tag_name_r n n' K X N) end.
    match goal with E : tk_end o = tk_start n, I : is [TK_LESS_THAN] o, G : forall u r, n :: _ = u :: r -> _ |- _ =>
      destruct (G n _ eq_refl (or_introl (match I with or_introl e => e | or_intror f => match f with end end)) E) as (u & r & Y & Z); injection Y as <- <- end.
    rewrite (lower_same _ _ X) in *. carry. apply item_void; auto.
    match goal with D : _ \/ is [TK_SLASH_GREATER_THAN] g |- _ => destruct D as [[D V]|D]; carry; [left; split; assumption|right; assumption] end.
  - match goal with C : comment_inner _ _ |- _ => apart; carry; apply item_html_comment; auto; eapply (comment_inner_r [TK_MINUS_MINUS_GREATER_THAN]); eauto end.
  - constructor.
  - match goal with R : respelled (t :: l) _ |- _ => apply r_cons in R as (t' & m & -> & A & _ & R) end.
    apply raw_plain; [eapply plain_r; eauto| |eauto].
    intros I u' r' -> [K X]. apply (back_alike [TK_LESS_THAN_SLASH] _ _ eq_refl A) in I.
    match goal with R : respelled l _ |- _ => destruct l as [|u l0]; [inversion R|]; apply r_cons in R as (u2 & m2 & Y & Au & _ & _) end.
    injection Y as <- <-. match goal with N : is _ t -> forall u l', _ -> ~ _ |- _ => apply (N I u l0 eq_refl) end.
    match goal with L : In (lower n) RAW |- _ => destruct (and_no_raw n L) as [N1 N2] end.
    destruct Au as [[B1 B2]|[(_ & _ & _ & B)|(_ & _ & _ & B)]]; [split; congruence|destruct N1; congruence|destruct N2; congruence].
  - apply raw_statement; eauto.
Qed.
Lemma template_respelled l l' : template l -> respelled l l' -> template l'.
Proof. intros T. exact (proj1 (proj2 (proj2 templates_respelled)) InBody l T l'). Qed.
