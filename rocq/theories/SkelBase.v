(** Trees of arbitrary parses, part 1: set-up, tactics and the parser methods. *)
From Coq Require Import NArith String Bool Arith Lia List.
Import ListNotations.
From Verif Require Import Text Kind Regex Lexer LexerProofs ParserApi GrammarExpr GrammarTags GrammarHtml
  Machine TreeMachine Simulation TreeSpec WpBase Total Schema Skeleton Precedence Shape ShapeStrict.
Local Notation length := List.length (only parsing).
Local Open Scope list_scope.
Local Open Scope prog_scope.
Local Open Scope cm_scope.

Definition item_part (i : item) : list sym :=
  match i with ITok _ _ _ | ITriv _ => [] | INode _ t | ILock t => part t end.
Definition cn (its : list item) : list sym := flat_map item_part its.
Lemma cn_app a b : cn (a ++ b) = cn a ++ cn b.
Proof. apply flat_map_app. Qed.
Lemma cn_cons i b : cn (i :: b) = item_part i ++ cn b.
Proof. reflexivity. Qed.
Lemma cn_nil : cn [] = [].
Proof. reflexivity. Qed.
Lemma cn_lock b : cn (map lock b) = cn b.
Proof. induction b as [|[| | |] b IH]; [reflexivity| | | |]; cbn [map lock]; rewrite !cn_cons, IH; reflexivity. Qed.
Lemma cn_parts its : parts (trees its) = cn its.
Proof.
  assert (L : forall l, parts (map leaf l) = []) by (induction l; auto).
  induction its as [|i its IH]; [reflexivity|]. unfold trees, parts in *. cbn [flat_map].
  rewrite flat_map_app, IH, cn_cons. f_equal. destruct i; cbn [item_trees item_part].
  - rewrite flat_map_app, L. reflexivity.
  - apply L.
  - cbn [flat_map]. apply app_nil_r.
  - cbn [flat_map]. apply app_nil_r.
Qed.

Definition is_tok (i : item) : Prop := match i with ITok _ _ _ | ITriv _ => True | _ => False end.
Lemma only_tokens its : Forall is_tok its -> nodes (trees its) = [] /\ parts (trees its) = [].
Proof.
  assert (L : forall l, nodes (map leaf l) = [] /\ parts (map leaf l) = []) by (induction l; auto).
  induction 1 as [|i its H _ [IH1 IH2]]; [auto|]. unfold trees, nodes, parts in *. cbn [flat_map].
  rewrite filter_app, flat_map_app, IH1, IH2. destruct i as [tr k us|tr| |]; cbn [is_tok item_trees] in *; try contradiction.
  - rewrite filter_app, flat_map_app. destruct (L tr) as [L1 L2]. unfold nodes, parts in *. rewrite L1, L2. auto.
  - destruct (L tr) as [L1 L2]. unfold nodes, parts in *. rewrite L1, L2. auto.
Qed.

(** what every node satisfies *)
Definition sound (k : kind) (cs : list tree) : Prop := fits k cs /\ grouped k cs.
(** kinds without operators *)
Definition ordinary (k : kind) : bool :=
  match k with TWIG_BINARY_EXPRESSION | TWIG_UNARY_EXPRESSION | TWIG_CONDITIONAL_EXPRESSION => false | _ => true end.
Lemma ordinary_grouped k cs : ordinary k = true -> grouped k cs.
Proof. destruct k; try discriminate; intros _; exact I. Qed.

(** a token the lexer does not know, with trivia in front *)
Definition unk (i : item) : Prop := match i with ITok _ TK_UNKNOWN _ => True | _ => False end.
Lemma unk_cn b : Forall unk b -> cn b = [].
Proof. induction 1 as [|[tr k us| | |] b H _ IH]; [reflexivity| | | |]; cbn [unk] in H; try contradiction. exact IH. Qed.

(** one node of one of the kinds [ks] with marker [c] *)
Definition one1 (ks : list kind) (c : nat) (t : list item) : Prop :=
  exists k cs b, t = INode c (Node k cs) :: b /\ Forall unk b /\ In k ks /\ k <> ERROR.
Definition may1 (ks : list kind) (a : option nat) (t : list item) : Prop :=
  match a with Some c => one1 ks c t | None => t = [] end.
Lemma part_node k cs : k <> ERROR -> part (Node k cs) = [Nd k].
Proof. destruct k; try reflexivity. now intros []. Qed.
Lemma one1_sem ks c t : one1 ks c t -> sem (nd ks) (cn t).
Proof.
  intros (k & cs & b & -> & Hb & Hk & He). apply unk_cn in Hb. rewrite cn_cons, Hb. cbn [item_part]. rewrite part_node by exact He.
  apply sem_one. now apply in_map.
Qed.
Lemma may1_sem ks a t : may1 ks a t -> sem (opt (nd ks)) (cn t).
Proof. destruct a; cbn [may1]; [intros H; apply sem_opt; now apply one1_sem in H|intros ->; apply sem_opt_nil]. Qed.
(** nothing was parsed, but tokens may have been put aside *)
Definition may0 (ks : list kind) (a : option nat) (t : list item) : Prop :=
  match a with Some c => one1 ks c t | None => cn t = [] end.
Lemma may1_may0 ks a t : may1 ks a t -> may0 ks a t.
Proof. destruct a; [exact (fun H => H)|]. cbn [may1 may0]. now intros ->. Qed.
Lemma may0_sem ks a t : may0 ks a t -> sem (opt (nd ks)) (cn t).
Proof. destruct a; cbn [may0]; [intros H; apply sem_opt; now apply one1_sem in H|intros ->; apply sem_opt_nil]. Qed.
Lemma one1_sub ks ks' c t : one1 ks c t -> forallb (fun k => mem_kind k ks') ks = true -> one1 ks' c t.
Proof.
  intros (k & cs & b & -> & Hb & Hk & He) F. rewrite forallb_forall in F. exists k, cs, b. repeat split; auto.
  apply mem_kind_in. auto.
Qed.
Lemma one1_junk ks c t x : one1 ks c t -> unk x -> one1 ks c (t ++ [x]).
Proof. intros (k & cs & b & -> & Hb & Hk & He) Hx. exists k, cs, (b ++ [x]). repeat split; auto. apply Forall_app. auto. Qed.
Definition not_error (k : kind) : bool := match k with ERROR => false | _ => true end.
Lemma one1_node k ks c cs : mem_kind k ks = true -> not_error k = true -> one1 ks c [INode c (Node k cs)].
Proof.
  intros H E. exists k, cs, []. split; [reflexivity|]. split; [constructor|]. split; [now apply mem_kind_in|]. now intros ->.
Qed.
Lemma one1_self k c cs : not_error k = true -> one1 [k] c [INode c (Node k cs)].
Proof. intros E. exists k, cs, []. split; [reflexivity|]. split; [constructor|]. split; [now left|]. now intros ->. Qed.

(** What the recursive entry points return, without what is said about operators. *)
Definition kids (f : pfun) : list kind :=
  match f with
  | PFAny => elements
  | PFAttr => HTML_ATTRIBUTE :: twig_statements
  | PFDouble | PFSingle => twig_statements
  | PFRawInner => [HTML_RAW_TEXT]
  end.
Definition Rk (c : call) (a : option nat) (t : list item) : Prop :=
  match c with
  | CExpr _ => may1 [TWIG_EXPRESSION] a t
  | CChild f => sem (Many (nd (kids f))) (cn t)
  end.

(** * Operators and what comes next *)

(** How tightly an operator holds its left operand and its right operand, in the numbers of the code. *)
Definition left_power (o : opr) : nat :=
  match o with Bin k => match binary_binding_power k with Some (l, _) => l | None => 0 end | _ => 0 end.
Definition right_power (o : opr) : nat :=
  match o with
  | Bin k => match binary_binding_power k with Some (_, r) => r | None => 0 end
  | Pre k => match unary_binding_power k with Some r => r | None => 0 end
  | Low => 0
  end.
(** how tightly the next token would hold what is in front of it *)
Definition next_power (r : list token) : option nat :=
  match drop_trivia r with
  | [] => None
  | tok :: _ =>
    match tk_kind tok with
    | TK_QUESTION_MARK => Some 0
    | k => match binary_binding_power k with Some (l, _) => Some l | None => None end
    end
  end.
Definition below (r : list token) (p : nat) : Prop := match next_power r with Some l => l < p | None => True end.
(** An expression with right edge [x] ends here: the next token is none of its operators' business. *)
Definition closed (x : option (list opr)) : Prop := match x with Some (_ :: _) => False | _ => True end.
Definition stops (x : option (list opr)) (r : list token) : Prop :=
  match x with
  | Some os => l_at TK_UNKNOWN (drop_trivia r) = false /\ Forall (fun o => below r (right_power o)) os
  | None => True
  end.
Definition finished (t : tree) (r : list token) (bp : nat) : Prop :=
  match right_edge t with
  | Some os => l_at TK_UNKNOWN (drop_trivia r) = false /\ below r bp /\ Forall (fun o => below r (right_power o)) os
  | None => True
  end.
(** a complete expression, parsed with the minimum binding power [bp] *)
Definition EX (bp : nat) (c : nat) (r : list token) (t : list item) : Prop :=
  exists cs b, t = INode c (Node TWIG_EXPRESSION cs) :: b /\ Forall unk b /\
    Forall (fun o => bp <= left_power o) (left_edge (Node TWIG_EXPRESSION cs)) /\
    finished (Node TWIG_EXPRESSION cs) r bp.
(** What the recursive entry points return. *)
Definition Rs (c : call) (a : option nat) (r : list token) (t : list item) : Prop :=
  match c with
  | CExpr bp => match a with Some m => EX bp m r t | None => t = [] end
  | CChild f => sem (Many (nd (kids f))) (cn t)
  end.
Lemma EX_one1 bp c r t : EX bp c r t -> one1 [TWIG_EXPRESSION] c t.
Proof. intros (cs & b & -> & Hb & _). exists TWIG_EXPRESSION, cs, b. repeat split; auto; [now left|discriminate]. Qed.
Lemma Rs_Rk c a r t : Rs c a r t -> Rk c a t.
Proof. destruct c; [|exact (fun H => H)]. destruct a; [apply EX_one1|exact (fun H => H)]. Qed.

Section Skel.
  Context (dbg : bool) (T : list token) (N : nat).
  Notation J := (Shape.J false dbg T sound).
  Context (HC : forall m c r, m < N -> J m r [] [] (body c) (Rs c)).

  (** The judgement of Shape.v, for every remaining input. *)
  Definition K {A : Set} (segs : list (nat * list item)) (t : list item) (p : prog A)
    (R : A -> list item -> Prop) : Prop :=
    forall n r, n <= N -> J n r segs t p (fun a _ t' => R a t').

  Lemma K_mono (A : Set) segs t (p : prog A) (R R' : A -> list item -> Prop) :
    K segs t p R -> (forall a t, R a t -> R' a t) -> K segs t p R'.
  Proof. intros H HR n r Hn. eapply J_mono; [apply H, Hn|]. auto. Qed.
  Lemma K_ret (A : Set) t (a : A) (R : A -> list item -> Prop) : R a t -> K [] t (Ret a) R.
  Proof. intros H n r Hn. now apply J_ret. Qed.
  Lemma K_bind (A B : Set) segs t (p : prog A) (g : A -> prog B) R1 R :
    K [] t p R1 -> (forall a t1, R1 a t1 -> K segs t1 (g a) R) -> K segs t (bind p g) R.
  Proof. intros H Hg n r Hn. eapply J_bind; [apply H, Hn|]. cbv beta. intros a r1 t1 _ Ha. now apply (Hg a t1 Ha). Qed.
  Lemma K_app (A B : Set) segs t (p : prog A) (g : A -> prog B) R1 R :
    K [] [] p R1 -> (forall a t1, R1 a t1 -> K segs (t ++ t1) (g a) R) -> K segs t (bind p g) R.
  Proof. intros H Hg n r Hn. eapply J_app; [apply H, Hn|]. cbv beta. intros a r1 t1 _ Ha. now apply (Hg a t1 Ha). Qed.
  Lemma K_tail (A : Set) segs t (p : prog A) R : K segs t (bind p (fun a => Ret a)) R -> K segs t p R.
  Proof. intros H n r Hn. apply J_tail. now apply H. Qed.
  Lemma K_assoc (A B C : Set) segs t (p : prog A) (g : A -> prog B) (h : B -> prog C) R :
    K segs t (bind p (fun a => bind (g a) h)) R -> K segs t (bind (bind p g) h) R.
  Proof. intros H n r Hn. apply J_assoc. now apply H. Qed.

  Lemma K_look (A B : Set) segs t (f : list token -> A) (g : A -> prog B) R :
    (forall x, K segs t (g x) R) -> K segs t (bind (look f) g) R.
  Proof. intros H n r Hn. apply J_look. now apply H. Qed.
  Lemma K_get_pos (A : Set) segs t (g : nat -> prog A) R : (forall k, K segs t (g k) R) -> K segs t (bind get_pos g) R.
  Proof. intros H n r Hn. apply J_get_pos. intros k. now apply H. Qed.
  Lemma K_bump_site (A : Set) segs t site (g : token -> prog A) R :
    (forall tok tr, K segs (t ++ [ITok tr (tk_kind tok) [tok]]) (g tok) R) -> K segs t (bind (bump_site site) g) R.
  Proof. intros H n r Hn. apply J_bump_site. intros tok ts tr _. now apply H. Qed.
  Lemma K_bump (A : Set) segs t (g : token -> prog A) R :
    (forall tok tr, K segs (t ++ [ITok tr (tk_kind tok) [tok]]) (g tok) R) -> K segs t (bind bump g) R.
  Proof. apply K_bump_site. Qed.
  Lemma K_bump_as (A : Set) segs t k (g : token -> prog A) R :
    (forall tok tok' tr, K segs (t ++ [ITok tr k [tok]]) (g tok') R) -> K segs t (bind (bump_as k) g) R.
  Proof. intros H n r Hn. apply J_bump_as. intros tok ts tr _. now apply H. Qed.
  Lemma K_bump_n (A : Set) segs t c k (g : list token -> prog A) R :
    (forall toks tr, K segs (t ++ [ITok tr k toks]) (g toks) R) -> K segs t (bind (bump_next_n_as c k) g) R.
  Proof. intros H n r Hn. apply J_bump_n. intros tr _. now apply H. Qed.
  Lemma K_trivia (A : Set) segs t (g : unit -> prog A) R :
    (forall tr, K segs (t ++ [ITriv tr]) (g tt) R) -> K segs t (bind explicitly_consume_trivia g) R.
  Proof. intros H n r Hn. apply J_trivia. intros tr. now apply H. Qed.
  Lemma K_error_t (A : Set) segs t e (g : unit -> prog A) R : K segs t (g tt) R -> K segs t (bind (add_error_t e) g) R.
  Proof. intros H n r Hn. apply J_add_error_t. intros _. now apply H. Qed.
  Lemma K_error (A : Set) segs t e (g : unit -> prog A) R : K segs t (g tt) R -> K segs t (bind (add_error e) g) R.
  Proof. apply K_error_t. Qed.
  Lemma K_error_at (A : Set) segs t e tok (g : unit -> prog A) R : K segs t (g tt) R -> K segs t (bind (add_error_at e tok) g) R.
  Proof. intros H n r Hn. apply J_add_error_at. intros _. now apply H. Qed.
  Lemma K_fail (A B : Set) segs t q (g : A -> prog B) R : K segs t (bind (fail q) g) R.
  Proof. intros n r Hn. apply J_fail. Qed.
  Lemma K_dassert_site (A : Set) segs t site f (g : unit -> prog A) R :
    K segs t (g tt) R -> K segs t (bind (debug_assert_site site f) g) R.
  Proof. intros H n r Hn. apply J_dassert_site. intros r' _. now apply H. Qed.
  Lemma K_dassert (A : Set) segs t f (g : unit -> prog A) R :
    K segs t (g tt) R -> K segs t (bind (debug_assert f) g) R.
  Proof. apply K_dassert_site. Qed.
  Lemma K_start (A : Set) segs t (g : nat -> prog A) R :
    (forall m, K ((m, t) :: segs) [] (g m) R) -> K segs t (bind start g) R.
  Proof. intros H n r Hn. apply J_start. intros m. now apply H. Qed.
  Lemma K_complete (A : Set) segs m saved t k M (g : nat -> prog A) R :
    skeleton k = Some M -> not_error k = true -> ordinary k = true -> sem M (cn t) ->
    (forall cs, K segs (saved ++ [INode m (Node k cs)]) (g m) R) ->
    K ((m, saved) :: segs) t (bind (complete m k) g) R.
  Proof.
    intros Hk He Ho HM H n r Hn. apply J_complete; [|now apply H]. intros _. split; [|now apply ordinary_grouped].
    split; [|now intros ->]. rewrite Hk, cn_parts. exact HM.
  Qed.
  Lemma K_complete_error (A : Set) segs m saved t (g : nat -> prog A) R :
    Forall is_tok t -> (forall cs, K segs (saved ++ [INode m (Node ERROR cs)]) (g m) R) ->
    K ((m, saved) :: segs) t (bind (complete m ERROR) g) R.
  Proof.
    intros Ht H n r Hn. apply J_complete; [|now apply H]. intros _. apply only_tokens in Ht as [H1 H2].
    split; [|exact I]. split; [cbn [skeleton]; exact H2|auto].
  Qed.
  Lemma K_precede (A : Set) segs o ks c t1 rest (g : nat -> prog A) R :
    one1 ks c t1 ->
    (forall m t1', sem (nd ks) (cn t1') -> K ((m, o) :: segs) (t1' ++ map lock rest) (g m) R) ->
    K segs (o ++ t1 ++ rest) (bind (precede c) g) R.
  Proof.
    intros (k & cs & b & -> & Hb & Hk & He) H n r Hn. apply unk_cn in Hb. cbn [app]. apply J_precede. intros m.
    specialize (H m (ILock (Node k cs) :: map lock b)). rewrite map_app. apply H; [|exact Hn].
    rewrite cn_cons, cn_lock, Hb. cbn [item_part]. rewrite part_node by exact He. apply sem_one. now apply in_map.
  Qed.
  Lemma K_precede0 (A : Set) segs ks c t (g : nat -> prog A) R :
    one1 ks c t -> (forall m t', sem (nd ks) (cn t') -> K ((m, []) :: segs) t' (g m) R) ->
    K segs t (bind (precede c) g) R.
  Proof.
    intros H Hg. rewrite <- (app_nil_r t). apply (K_precede _ segs [] ks c t []); [exact H|].
    intros m t1 Ht. cbn [map]. rewrite app_nil_r. auto.
  Qed.
  Lemma K_precede1 (A : Set) segs ks c t rest (g : nat -> prog A) R :
    one1 ks c t -> (forall m t', sem (nd ks) (cn t') -> K ((m, []) :: segs) (t' ++ map lock rest) (g m) R) ->
    K segs (t ++ rest) (bind (precede c) g) R.
  Proof. apply (K_precede _ segs []). Qed.
  Lemma K_call (A : Set) segs t c (g : option nat -> prog A) R :
    (forall a t1, Rk c a t1 -> K segs (t ++ t1) (g a) R) -> K segs t (bind (Call c (fun x => Ret x)) g) R.
  Proof.
    intros H n r Hn. eapply J_call.
    - intros m Hm. apply HC. lia.
    - cbv beta. intros a r1 t1 _ Ha. apply (H a t1); [|exact Hn]. eapply Rs_Rk, Ha.
  Qed.
  Lemma K_iter (X B : Set) t (f : X -> prog (X + B)) x (I : X -> list item -> Prop) (R : B -> list item -> Prop) :
    I x t ->
    (forall x t, I x t -> K [] t (f x) (fun y t' => match y with inr b => R b t' | inl x' => I x' t' end)) ->
    K [] t (Iter f x (fun b => Ret b)) R.
  Proof.
    intros H0 Hf n r Hn. apply J_iter with (I := fun x _ t => I x t); [exact H0|].
    intros m x1 r1 t1 Hm _ HI. eapply J_mono; [apply (Hf x1 t1 HI); lia|]. auto.
  Qed.
  Lemma K_many_st (X : Set) t early child (x : X) (I : X -> list item -> Prop) :
    I x t ->
    (forall x t i, I x t -> unk i -> I x (t ++ [i])) ->
    (forall x t, I x t -> K [] t (early x) (fun y t' => I (snd y) t')) ->
    (forall x t, I x t -> K [] t (child x) (fun x' t' => I x' t')) ->
    K [] t (parse_many_st early child x) I.
  Proof.
    intros H0 Hu He Hf n r Hn. apply J_many with (I := fun x _ t => I x t).
    - exact H0.
    - intros x1 r1 t1 tok ts tr H1 _ _. apply Hu; [exact H1|exact Logic.I].
    - auto.
    - intros m x1 r1 t1 Hm _ H1 _ _. assert (Hm' : m <= N) by lia. revert m Hm' Hm.
      enough (Z : K [] t1 (y <- early x1 ;; if fst y : bool then Ret (inr (snd y)) else x2 <- child (snd y) ;; Ret (inl x2))
                (fun y t' => match y with inr b => I b t' | inl x' => I x' t' end))
        by (intros m Hm' _; apply (Z m _ Hm')).
      eapply K_bind; [apply He, H1|]. cbv beta. intros [[] x2] t2 H2; cbn [fst snd] in *; [now apply K_ret|].
      eapply K_bind; [apply Hf, H2|]. cbv beta. intros x3 t3 H3. now apply K_ret.
  Qed.
  (** A list of parts. *)
  Lemma K_list_st (X : Set) early child (x : X) M :
    (forall x, K [] [] (early x) (fun _ t => cn t = [])) ->
    (forall x, K [] [] (child x) (fun _ t => sem (Many M) (cn t))) ->
    K [] [] (parse_many_st early child x) (fun _ t => sem (Many M) (cn t)).
  Proof.
    intros He Hc. apply K_many_st with (I := fun _ t => sem (Many M) (cn t)).
    - apply sem_many_nil.
    - intros x1 t i H Hi. rewrite cn_app, (unk_cn [i]) by auto. now rewrite app_nil_r.
    - intros x1 t H. apply K_tail. eapply K_app; [apply He|]. cbv beta. intros a t1 H1. apply K_ret.
      now rewrite cn_app, H1, app_nil_r.
    - intros x1 t H. apply K_tail. eapply K_app; [apply Hc|]. cbv beta. intros a t1 H1. apply K_ret.
      rewrite cn_app. now apply sem_many_app.
  Qed.
  Lemma K_list early child M :
    K [] [] early (fun _ t => cn t = []) -> K [] [] child (fun _ t => sem (Many M) (cn t)) ->
    K [] [] (parse_many early child) (fun _ t => sem (Many M) (cn t)).
  Proof.
    intros He Hc. unfold parse_many. apply K_list_st; [|intros; exact Hc]. intros x.
    eapply K_app; [exact He|]. cbv beta. intros a t H. now apply K_ret.
  Qed.

  (** * Parser methods *)
  Definition no_part {A : Set} (_ : A) (t : list item) : Prop := cn t = [].
  Lemma K_display (A : Set) segs t k (g : text -> prog A) R :
    (forall x, K segs t (g x) R) -> K segs t (bind (display k) g) R.
  Proof. intros H. unfold display. destruct (kind_display k); [apply H|apply K_fail]. Qed.
  Lemma K_display_or : forall ks, K [] [] (display_or ks) no_part.
  Proof.
    induction ks as [|k ks IH]; [now apply K_ret|]. destruct ks as [|k' ks].
    - apply K_tail. apply K_display. intros x. now apply K_ret.
    - change (display_or (k :: k' :: ks)) with
        (d <- display k ;; r <- display_or (k' :: ks) ;; Ret (d ++ txt " or " ++ r)%list).
      apply K_display. intros x. eapply K_app; [apply IH|]. cbv beta. intros a t1 H. now apply K_ret.
  Qed.
  Lemma K_stop set1 set2 :
    K [] [] (e <- at_end ;; if e : bool then Ret true else a <- at_set set1 ;; if a then Ret true else at_set set2) no_part.
  Proof.
    apply K_look. intros []; [now apply K_ret|]. apply K_look. intros []; [now apply K_ret|].
    apply K_tail. apply K_look. intros b. now apply K_ret.
  Qed.
  Lemma K_recover_expect expected set : K [] [] (recover_expect expected set) no_part.
  Proof.
    unfold recover_expect.
    assert (RO : forall (A : Set) segs t (x : bool -> prog A) s1 s2 R, (forall b, K segs t (x b) R) ->
      K segs t (bind (e <- at_end ;; if e : bool then Ret true else a <- at_set s1 ;; if a then Ret true else at_set s2) x) R).
    { intros A segs t x s1 s2 R H. apply K_assoc. apply K_look. intros []; cbn [bind]; [apply H|]. apply K_assoc.
      apply K_look. intros []; cbn [bind]; [apply H|]. apply K_look. auto. }
    apply RO. intros []; [now apply K_ret|].
    (* the loop runs inside the error node *)
    intros n r Hn. apply J_start. intros m. apply J_tail.
    intros Gt Gs its st. cbn [cur stk] in *. rewrite app_nil_r. apply wp_bind.
    assert (P : forall (A B : Set) n r t (p : prog A) (g : A -> prog B) R1 st Q, n <= N -> Forall (gooditem sound) t -> K [] t p R1 ->
      (forall a r' t', Forall (gooditem sound) t' -> R1 a t' -> WpBase.wp (tstep false dbg T) (inv T) (fun _ => True) True n (g a) r' t' st Q) ->
      WpBase.wp (tstep false dbg T) (inv T) (fun _ => True) True n (bind p g) r t st Q).
    { clear. intros A B n r t p g R1 st Q Hn G H Hg. apply wp_bind.
      specialize (H n r Hn G (Forall_nil _) [] st). cbn [cur stk app] in H. eapply wp_mono; [exact H|]. cbn.
      intros a r' i s (t' & -> & -> & G' & Ha). now apply Hg. }
    eapply wp_iter with
      (J := fun _ _ _ i s => s = (m, its) :: st /\ Forall is_tok i /\ Forall (gooditem sound) i)
      (QB := fun b r i s => exists t', s = st /\ i = its ++ t' /\ Forall (gooditem sound) t' /\ cn t' = []).
    - auto.
    - intros n1 [] r1 t1 s1 Hn1 (-> & Ht1 & G1).
      assert (F : forall (A : Set) n r t (g : nat -> prog (unit + A)), n <= N -> Forall is_tok t -> Forall (gooditem sound) t ->
        (forall c, K [] [INode m (Node ERROR c)] (g m) (fun y t' => cn t' = [] /\ match y with inr _ => True | inl _ => False end)) ->
        WpBase.wp (tstep false dbg T) (inv T) (fun _ => True) True n (bind (complete m ERROR) g) r t ((m, its) :: st)
          (fun y r' i s => match y with
             | inr b => exists t', s = st /\ i = its ++ t' /\ Forall (gooditem sound) t' /\ cn t' = []
             | inl _ => False end)).
      { intros A n2 r2 t2 g Hn2 Ht2 G2 Hg.
        assert (KK : K [(m, [])] t2 (bind (complete m ERROR) g) (fun y t' => cn t' = [] /\ match y with inr _ => True | inl _ => False end)).
        { apply K_complete_error; [exact Ht2|exact Hg]. }
        specialize (KK n2 r2 Hn2 G2). assert (Gs' : goodstack sound [(m, [])]) by (repeat constructor).
        specialize (KK Gs' its st). cbn [cur stk] in KK. rewrite app_nil_r in KK. eapply wp_mono; [exact KK|]. cbn.
        intros [[]|b] r3 i3 s3 (t3 & -> & -> & G3 & E3 & E4); [exact E4|]. eauto. }
      eapply P with (R1 := fun _ t' => Forall is_tok t'); [lia|exact G1| |].
      { apply K_tail. apply K_bump. intros tok tr. apply K_ret. apply Forall_app. split; [exact Ht1|]. repeat constructor. }
      cbv beta. intros _ r2 t2 G2 Ht2. eapply P with (R1 := fun _ t' => Forall is_tok t'); [lia|exact G2| |].
      { destruct expected; [now apply K_ret|]. apply K_tail, K_look. intros x. now apply K_ret. }
      cbv beta. intros [] r3 t3 G3 Ht3.
      + eapply wp_mono; [apply F; [lia|exact Ht3|exact G3|]|].
        * intros c. apply K_bump. intros tok tr. apply K_ret. auto.
        * cbn. intros [x|b] r4 i4 s4 H; [destruct H|exact H].
      + eapply P with (R1 := fun _ t' => Forall is_tok t'); [lia|exact G3| |].
        { apply K_look. intros []; [now apply K_ret|]. apply K_look. intros []; [now apply K_ret|]. apply K_tail, K_look. intros b. now apply K_ret. }
        cbv beta. intros [] r4 t4 G4 Ht4.
        * eapply wp_mono; [apply F; [lia|exact Ht4|exact G4|]|].
          -- intros c. apply K_ret. auto.
          -- cbn. intros [x|b] r5 i5 s5 H; [destruct H|exact H].
        * apply wp_ret. destruct n1; [exact Logic.I|]. auto.
    - intros b r1 i1 s1 H. apply wp_ret. destruct H as (t' & -> & -> & G & E). apply wp_ret. eauto.
  Qed.

  Lemma K_expect (A : Set) segs t k set (g : option token -> prog A) R :
    (forall a t1, cn t1 = [] -> K segs (t ++ t1) (g a) R) -> K segs t (bind (expect k set) g) R.
  Proof.
    intros H. eapply K_app with (R1 := no_part); [|exact H]. unfold expect. apply K_look. intros [].
    - apply K_bump. intros. now apply K_ret.
    - apply K_display. intros x. apply K_error_t. apply K_recover_expect.
  Qed.
  Lemma K_expect_any (A : Set) segs t ks set (g : option token -> prog A) R :
    (forall a t1, cn t1 = [] -> K segs (t ++ t1) (g a) R) -> K segs t (bind (expect_any ks set) g) R.
  Proof.
    intros H. eapply K_app with (R1 := no_part); [|exact H]. unfold expect_any. apply K_look. intros [].
    - apply K_bump. intros. now apply K_ret.
    - eapply K_app; [apply K_display_or|]. intros x t1 H1. apply K_error_t. apply K_tail.
      eapply K_app; [apply K_recover_expect|]. intros a t2 H2. apply K_ret. unfold no_part in *. cbn [app]. now rewrite cn_app, H1, H2.
  Qed.
  Lemma K_recover (A : Set) segs t set (g : unit -> prog A) R :
    (forall t1, cn t1 = [] -> K segs (t ++ t1) (g tt) R) -> K segs t (bind (recover set) g) R.
  Proof. intros H. unfold recover. apply K_assoc. eapply K_app; [apply K_recover_expect|]. intros a t1 H1. now apply H. Qed.
End Skel.

(** * Proof search *)
Lemma sem_seq_eps m l : sem (m >> Eps) l -> sem m l.
Proof. intros (x & y & -> & H & ->). now rewrite app_nil_r. Qed.
Lemma sem_many_seq a b x y : sem (Many a) x -> sem (Many a >> b) y -> sem (Many a >> b) (x ++ y).
Proof.
  intros Hx (y1 & y2 & -> & H1 & H2). exists (x ++ y1), y2. rewrite app_assoc. repeat split; auto. now apply sem_many_app.
Qed.
Lemma sem_many_incl ks' ks l : sem (Many (nd ks')) l -> forallb (fun k => mem_kind k ks) ks' = true -> sem (Many (nd ks)) l.
Proof. intros H F. eapply star_impl; [|exact H]. intros y Hy. eapply sem_nd_incl; [exact Hy|exact F]. Qed.
Lemma sem_many_opt ks' ks l : sem (opt (nd ks')) l -> forallb (fun k => mem_kind k ks) ks' = true -> sem (Many (nd ks)) l.
Proof.
  intros [->|H] F; [apply sem_many_nil|]. apply sem_many_one. eapply sem_nd_incl; [exact H|exact F].
Qed.
Lemma sem_opt_incl ks' ks l : sem (opt (nd ks')) l -> forallb (fun k => mem_kind k ks) ks' = true -> sem (opt (nd ks)) l.
Proof. intros [->|H] F; [apply sem_opt_nil|]. apply sem_opt. eapply sem_nd_incl; [exact H|exact F]. Qed.

Ltac cns :=
  repeat (first [rewrite cn_app | rewrite cn_cons | rewrite cn_lock | rewrite <- app_assoc
         | match goal with H : cn ?b = [] |- context [cn ?b] => rewrite H end
         | match goal with H : ?b = @nil item |- context [cn ?b] => rewrite H end
         | match goal with H : no_part _ ?b |- context [cn ?b] => rewrite (H : cn b = []) end ];
         cbn [map lock]);
  cbn [item_part part]; rewrite ?cn_nil, ?app_nil_l.
Ltac elem1 := first
  [ eassumption
  | apply sem_nd_mem; reflexivity
  | eapply sem_nd_incl; [eassumption|reflexivity] ].
Ltac elem_opt := first [eassumption | eapply sem_opt_incl; [eassumption|reflexivity]].
Ltac elem_many := first
  [ eassumption
  | apply sem_many_one; elem1
  | eapply sem_many_incl; [eassumption|reflexivity]
  | eapply sem_many_opt; [eassumption|reflexivity] ].
Ltac smn1 :=
  lazymatch goal with
  | |- sem Eps [] => reflexivity
  | |- sem (Seq (Seq _ _) _) _ => apply sem_assoc; smn1
  | |- sem (Seq Eps _) _ => apply sem_eps_l; smn1
  | |- sem (Seq (Alt _ _) _) (_ ++ _) =>
    first [apply sem_seq; [elem_opt|smn1] | apply sem_dist_l; smn1 | apply sem_dist_r; smn1]
  | |- sem (Seq (Alt _ _) _) _ => first [apply sem_seq_last; [elem_opt|smn1] | apply sem_dist_l; smn1 | apply sem_dist_r; smn1]
  | |- sem (Seq (Many _) _) (_ ++ _) =>
    first [apply sem_many_seq; [elem_many|smn1] | apply sem_seq_skip; [apply sem_many_nil|smn1]]
  | |- sem (Seq (Many _) _) [] => apply sem_seq_skip; [apply sem_many_nil|smn1]
  | |- sem (Seq (Many _) _) _ => first [apply sem_seq_last; [elem_many|smn1] | apply sem_seq_skip; [apply sem_many_nil|smn1]]
  | |- sem (Seq _ _) (_ ++ _) => apply sem_seq; [elem1|smn1]
  | |- sem (Seq _ _) [] => fail
  | |- sem (Seq _ _) _ => apply sem_seq_last; [elem1|smn1]
  end.
Ltac smn := cns; rewrite ?app_nil_r; cbv delta [enclosed_body include_parts expr name string_ opt] beta;
  first [eassumption | apply sem_seq_eps; smn1].

Ltac toks := repeat first [apply Forall_nil | apply Forall_app; split | apply Forall_cons; [exact Logic.I|]]; try assumption.
Ltac kn := cbv beta iota zeta; cbn [fst snd]; repeat lazymatch goal with
  | |- K _ _ _ _ _ (bind (bind _ _) _) _ => apply K_assoc; cbv beta iota zeta end.
Ltac np := unfold no_part in *; cns; rewrite ?app_nil_r; reflexivity.
Ltac kstep :=
  kn;
  lazymatch goal with
  | |- K _ _ _ _ _ ?p _ =>
    lazymatch p with
    | Ret _ => fail
    | bind (Ret _) _ => cbn [bind]
    | bind (if ?b then _ else _) _ => destruct b
    | (if ?b then _ else _) => destruct b
    | bind (when ?b _) _ =>
      eapply K_app with (R1 := no_part);
        [unfold when; destruct b; repeat kstep; apply K_ret; np
        |let t := fresh "t" in let H := fresh "H" in intros ? t H; unfold no_part in H]
    | bind (add_error _) _ => apply K_error
    | bind (add_error_t _) _ => apply K_error_t
    | bind (add_error_at _ _) _ => apply K_error_at
    | bind (recover _) _ => apply K_recover; let t := fresh "t" in let H := fresh "H" in intros t H
    | bind start _ => apply K_start; let m := fresh "m" in intros m
    | bind bump _ => apply K_bump; let tok := fresh "tok" in let tr := fresh "tr" in intros tok tr
    | bind (bump_site _) _ => apply K_bump_site; let tok := fresh "tok" in let tr := fresh "tr" in intros tok tr
    | bind (bump_as _) _ => apply K_bump_as; let tok := fresh "tok" in let tr := fresh "tr" in intros tok ? tr
    | bind (bump_next_n_as _ _) _ => apply K_bump_n; let tok := fresh "tok" in let tr := fresh "tr" in intros tok tr
    | bind explicitly_consume_trivia _ => apply K_trivia; let tr := fresh "tr" in intros tr
    | bind (expect _ _) _ => apply K_expect; let t := fresh "t" in let H := fresh "H" in intros ? t H
    | bind (expect_any _ _) _ => apply K_expect_any; let t := fresh "t" in let H := fresh "H" in intros ? t H
    | bind (debug_assert _) _ => apply K_dassert
    | bind (debug_assert_site _ _) _ => apply K_dassert_site
    | bind (complete _ ERROR) _ => apply K_complete_error; [solve [toks]|let cs := fresh "cs" in intros cs]
    | bind (complete _ _) _ =>
      eapply K_complete; [reflexivity|reflexivity|reflexivity|try solve [smn]|let cs := fresh "cs" in intros cs]
    | bind (fail _) _ => apply K_fail
    | bind (match ?x with _ => _ end) _ => fail "match"
    | bind _ _ => apply K_look; intros ?
    | complete _ _ => apply K_tail
    | expect _ _ => apply K_tail
    | expect_any _ _ => apply K_tail
    | recover _ => apply K_tail
    | add_error _ => apply K_tail
    | add_error_t _ => apply K_tail
    | add_error_at _ _ => apply K_tail
    | look _ => apply K_tail
    | at_ _ => apply K_tail
    | at_set _ => apply K_tail
    end
  end; cbv beta iota zeta; cbn [fst snd].
Ltac ksteps := repeat kstep; kn.
(** Calling a function with a known specification. *)
Ltac kcall L := ksteps; eapply K_app; [eapply L; eassumption|];
  cbv beta; let t := fresh "t" in let H := fresh "H" in intros ? t H.
(** Going on with a function that takes over the node. *)
Ltac kinto L := kn; eapply K_bind; [eapply L; first [eassumption|idtac]
  |cbv beta; let t := fresh "t" in let H := fresh "H" in intros ? t H].
Ltac kprec := kn; cbn [app];
  eapply K_precede0; [first [eassumption | apply one1_self; reflexivity]|];
  let m := fresh "m" in let t := fresh "t" in let H := fresh "H" in intros m t H.
Ltac kprec1 H1 := kn; cbn [app]; repeat rewrite <- app_assoc;
  eapply K_precede1; [exact H1|]; let m := fresh "m" in let t := fresh "t" in let H := fresh "H" in intros m t H.
Ltac kfin := apply K_ret; cbn [app];
  first [apply one1_node; reflexivity | cbn [may0 may1]; reflexivity | cbn [may0 may1]; apply one1_node; reflexivity | np | smn
        | cbn [may0 may1]; eassumption].
