(** Trees of arbitrary parses, part 3: expressions. *)
From Coq Require Import NArith String Bool Arith Lia List.
Import ListNotations.
From Verif Require Import Text Kind Regex Lexer LexerProofs ParserApi GrammarExpr GrammarTags GrammarHtml
  Machine TreeMachine Simulation TreeSpec WpBase Total Schema Skeleton Precedence Shape ShapeStrict SkelBase SkelEdges.
Local Notation length := List.length (only parsing).
Local Open Scope list_scope.
Local Open Scope prog_scope.
Local Open Scope cm_scope.

Section Expr.
  Context (dbg : bool) (T : list token) (N : nat).
  Context (HC : forall m c r, m < N -> J false dbg T sound m r [] [] (body c) (Rs c)).
  Notation K := (K dbg T N).

  Lemma kx_expr bp : K [] [] (parse_twig_expression_binding_power bp) (may1 [TWIG_EXPRESSION]).
  Proof.
    unfold parse_twig_expression_binding_power. apply K_tail. eapply K_call; [exact HC|]. intros a t1 H. apply K_ret. exact H.
  Qed.
  Lemma kx_expression : K [] [] parse_twig_expression (may1 [TWIG_EXPRESSION]).
  Proof. apply kx_expr. Qed.
  Lemma kx_name : K [] [] parse_twig_name (may1 [TWIG_LITERAL_NAME]).
  Proof.
    unfold parse_twig_name. ksteps. destruct x0; [|now apply K_ret]. kstep; [now apply K_ret|].
    ksteps. kfin.
  Qed.
  Lemma kx_number : K [] [] parse_twig_number (one1 [TWIG_LITERAL_NUMBER]).
  Proof. unfold parse_twig_number. ksteps. kfin. Qed.
  Lemma kx_null : K [] [] parse_twig_null (one1 [TWIG_LITERAL_NULL]).
  Proof. unfold parse_twig_null. ksteps. kfin. Qed.
  Lemma kx_boolean : K [] [] parse_twig_boolean (one1 [TWIG_LITERAL_BOOLEAN]).
  Proof. unfold parse_twig_boolean. ksteps. kfin. Qed.

  Lemma kx_string_child q b :
    K [] [] (twig_string_child q b) (fun _ t => sem (Many (nd [TWIG_LITERAL_STRING_INTERPOLATION])) (cn t)).
  Proof.
    unfold twig_string_child. kstep. kstep; [ksteps; kfin|]. kstep. kstep; [|ksteps; kfin].
    kstep; [ksteps; kfin|]. kcall kx_expression. apply may1_sem in H. ksteps. kfin.
  Qed.
  Lemma kx_string b : K [] [] (parse_twig_string b) (one1 [TWIG_LITERAL_STRING]).
  Proof.
    unfold parse_twig_string. ksteps. eapply K_app.
    { apply K_list; [|apply kx_string_child]. ksteps. kfin. }
    cbv beta. intros _ t H. ksteps. kfin.
  Qed.
  (** Things separated by commas. *)
  Lemma kx_commas ks (close : list token -> bool) (p : prog (option nat)) :
    K [] [] p (may1 ks) ->
    K [] [] (parse_many (look close)
        (p ;; If at_ TK_COMMA Then bump ;; Ret tt Else If look close Then Ret tt Else add_error ","))
      (fun _ t => sem (Many (nd ks)) (cn t)).
  Proof.
    intros Hp. apply K_list; [ksteps; kfin|]. kcall Hp. apply may1_sem in H. ksteps; apply K_ret; cns; rewrite ?app_nil_r;
      (eapply sem_many_opt; [exact H|]); apply forallb_forall; intros k Hk; now apply mem_kind_in.
  Qed.
  Lemma kx_array : K [] [] parse_twig_array (one1 [TWIG_LITERAL_ARRAY]).
  Proof.
    unfold parse_twig_array. ksteps.
    eapply K_app; [apply (kx_commas [TWIG_EXPRESSION] (l_at TK_CLOSE_SQUARE)); apply kx_expression|].
    cbv beta. intros _ t H. ksteps. kfin.
  Qed.
  Lemma kx_hash_key : K [] [] parse_twig_hash_key (may1 [TWIG_LITERAL_HASH_KEY]).
  Proof.
    unfold parse_twig_hash_key. kstep. kstep.
    { eapply K_app; [apply kx_number|]. intros a t H. kprec. ksteps. kfin. }
    kstep. kstep.
    { eapply K_app; [apply kx_string|]. intros a t H. kprec. ksteps. kfin. }
    kstep. kstep.
    { kcall kx_expression. apply may1_sem in H. ksteps. kfin. }
    kstep. destruct x; [|now apply K_ret]. kstep; [|now apply K_ret]. ksteps. kfin.
  Qed.
  Lemma kx_hash_pair : K [] [] parse_twig_hash_pair (may1 [TWIG_LITERAL_HASH_PAIR]).
  Proof.
    unfold parse_twig_hash_pair. kcall kx_hash_key. destruct a as [c|]; [|now apply K_ret].
    cbn [may1] in H. kstep. kstep.
    - kcall kx_expression. apply may1_sem in H0. ksteps. kprec1 H. ksteps. kfin.
    - kstep. kprec. ksteps. kfin.
  Qed.
  Lemma kx_hash : K [] [] parse_twig_hash (one1 [TWIG_LITERAL_HASH]).
  Proof.
    unfold parse_twig_hash. ksteps.
    eapply K_app; [apply (kx_commas [TWIG_LITERAL_HASH_PAIR] (l_at TK_CLOSE_CURLY)); apply kx_hash_pair|].
    cbv beta. intros _ t H. ksteps. kfin.
  Qed.
  Lemma kx_argument : K [] [] parse_twig_function_argument (may1 [TWIG_EXPRESSION; TWIG_NAMED_ARGUMENT]).
  Proof.
    unfold parse_twig_function_argument. kstep. kstep.
    - kcall kx_expression. apply may1_sem in H0. ksteps. kfin.
    - eapply K_mono; [apply kx_expression|]. cbv beta. intros [c|] t1 H; cbn [may1] in *; [|exact H].
      eapply one1_sub; [exact H|reflexivity].
  Qed.
  Lemma kx_arguments closing :
    K [] [] (parse_arguments closing) (fun _ t => sem (Many (nd [TWIG_EXPRESSION; TWIG_NAMED_ARGUMENT])) (cn t)).
  Proof. unfold parse_arguments. apply (kx_commas _ (l_at_set closing)). apply kx_argument. Qed.

  Lemma kx_filter_of t rest c ks : one1 ks c t ->
    (forall l, sem (nd ks) l -> sem (opt (nd operands) <|> (name >> nd [TWIG_ARGUMENTS])) (l ++ cn rest)) ->
    K [] (t ++ rest) (parse_twig_filter c) (one1 [TWIG_FILTER]).
  Proof.
    intros H Hl. unfold parse_twig_filter. kstep. kprec1 H. kn.
    eapply K_complete; [reflexivity|reflexivity|reflexivity|rewrite cn_app, cn_lock; auto|]. intros cs.
    kprec. kcall kx_name. destruct a as [c1|]; cbn [is_none may1] in *.
    - apply one1_sem in H2. kstep. kstep.
      + kcall kx_arguments. ksteps. kfin.
      + ksteps. kfin.
    - ksteps. kfin.
  Qed.
  Lemma kx_filter t c : one1 operands c t -> K [] t (parse_twig_filter c) (one1 [TWIG_FILTER]).
  Proof.
    intros H. rewrite <- (app_nil_r t). eapply (kx_filter_of t [] c operands); eauto.
    intros l Hl. rewrite app_nil_r. left. right. exact Hl.
  Qed.
  Lemma kx_indexer t c : one1 operands c t -> K [] t (parse_twig_indexer c) (one1 [TWIG_INDEX_LOOKUP]).
  Proof.
    intros H. unfold parse_twig_indexer. kstep. kprec. kstep. kprec. kcall kx_expression. apply may1_sem in H2.
    kstep. kstep.
    - kcall kx_expression. apply may1_sem in H3. ksteps. kfin.
    - ksteps. kfin.
  Qed.

  (** * The judgement that keeps track of the remaining input *)
  Notation J := (Shape.J false dbg T sound).
  Notation good := (gooditem sound).
  Definition L {A : Set} (r : list token) (segs : list (nat * list item)) (t : list item) (p : prog A)
    (R : A -> list token -> list item -> Prop) : Prop := forall n, n <= N -> J n r segs t p R.

  Lemma L_K (A : Set) r segs t (p : prog A) R : K segs t p R -> L r segs t p (fun a _ t' => R a t').
  Proof. intros H n Hn. now apply H. Qed.
  Lemma L_mono (A : Set) r segs t (p : prog A) (R R' : res_spec A) :
    L r segs t p R -> (forall a r t, R a r t -> R' a r t) -> L r segs t p R'.
  Proof. intros H HR n Hn. eapply J_mono; [apply H, Hn|]. auto. Qed.
  Lemma L_ret (A : Set) r t (a : A) (R : res_spec A) : R a r t -> L r [] t (Ret a) R.
  Proof. intros H n Hn. now apply J_ret. Qed.
  Lemma L_good (A : Set) r segs t (p : prog A) (R : res_spec A) : (Forall good t -> L r segs t p R) -> L r segs t p R.
  Proof. intros H n Hn. apply J_good. intros G. now apply H. Qed.
  Lemma L_bind (A B : Set) r segs t (p : prog A) (g : A -> prog B) (R1 : res_spec A) R :
    L r [] t p R1 -> (forall a r1 t1, R1 a r1 t1 -> L r1 segs t1 (g a) R) -> L r segs t (bind p g) R.
  Proof. intros H Hg n Hn. eapply J_bind; [apply H, Hn|]. cbv beta. intros a r1 t1 _ Ha. now apply Hg. Qed.
  Lemma L_app (A B : Set) r segs t (p : prog A) (g : A -> prog B) (R1 : res_spec A) R :
    L r [] [] p R1 -> (forall a r1 t1, Forall good t1 -> R1 a r1 t1 -> L r1 segs (t ++ t1) (g a) R) -> L r segs t (bind p g) R.
  Proof. intros H Hg n Hn. eapply J_app; [apply H, Hn|]. cbv beta. intros a r1 t1 G Ha. now apply Hg. Qed.
  Lemma L_kapp (A B : Set) r segs t (p : prog A) (g : A -> prog B) (R1 : A -> list item -> Prop) R :
    K [] [] p R1 -> (forall a r1 t1, Forall good t1 -> R1 a t1 -> L r1 segs (t ++ t1) (g a) R) -> L r segs t (bind p g) R.
  Proof. intros H Hg. eapply L_app; [apply L_K, H|]. auto. Qed.
  Lemma L_tail (A : Set) r segs t (p : prog A) R : L r segs t (bind p (fun a => Ret a)) R -> L r segs t p R.
  Proof. intros H n Hn. apply J_tail. now apply H. Qed.
  Lemma L_assoc (A B C : Set) r segs t (p : prog A) (g : A -> prog B) (h : B -> prog C) R :
    L r segs t (bind p (fun a => bind (g a) h)) R -> L r segs t (bind (bind p g) h) R.
  Proof. intros H n Hn. apply J_assoc. now apply H. Qed.
  Lemma L_look (A B : Set) r segs t (f : list token -> A) (g : A -> prog B) R :
    L (drop_trivia r) segs t (g (f (drop_trivia r))) R -> L r segs t (bind (look f) g) R.
  Proof. intros H n Hn. apply J_look. now apply H. Qed.
  Lemma L_bump_site (A : Set) r segs t site (g : token -> prog A) R :
    (forall tok ts tr, drop_trivia r = tok :: ts -> good (ITok tr (tk_kind tok) [tok]) ->
       L ts segs (t ++ [ITok tr (tk_kind tok) [tok]]) (g tok) R) -> L r segs t (bind (bump_site site) g) R.
  Proof.
    intros H n Hn. apply J_bump_site. intros tok ts tr E Gt Gs. apply Forall_app in Gt as Gt'. destruct Gt' as [_ Gt'].
    inversion Gt'; subst. apply (H _ _ _ E); auto.
  Qed.
  Lemma L_bump (A : Set) r segs t (g : token -> prog A) R :
    (forall tok ts tr, drop_trivia r = tok :: ts -> good (ITok tr (tk_kind tok) [tok]) ->
       L ts segs (t ++ [ITok tr (tk_kind tok) [tok]]) (g tok) R) -> L r segs t (bind bump g) R.
  Proof. apply L_bump_site. Qed.
  Lemma L_dassert_site (A : Set) r segs t site f (g : unit -> prog A) R :
    (forall r', drop_trivia r' = drop_trivia r -> L r' segs t (g tt) R) -> L r segs t (bind (debug_assert_site site f) g) R.
  Proof.
    intros H n Hn. apply J_dassert_site. intros r' Hr. apply H; [|exact Hn].
    destruct Hr as [[_ ->]|(_ & -> & _)]; [reflexivity|apply drop_idem].
  Qed.
  Lemma L_dassert (A : Set) r segs t f (g : unit -> prog A) R :
    (forall r', drop_trivia r' = drop_trivia r -> L r' segs t (g tt) R) -> L r segs t (bind (debug_assert f) g) R.
  Proof. apply L_dassert_site. Qed.
  Lemma L_start (A : Set) r segs t (g : nat -> prog A) R :
    (forall m, L r ((m, t) :: segs) [] (g m) R) -> L r segs t (bind start g) R.
  Proof. intros H n Hn. apply J_start. intros m. now apply H. Qed.
  Lemma L_complete (A : Set) r segs m saved t k M (g : nat -> prog A) R :
    skeleton k = Some M -> not_error k = true -> sem M (cn t) -> (Forall good t -> grouped k (trees t)) ->
    (Forall good t -> L r segs (saved ++ [INode m (Node k (trees t))]) (g m) R) ->
    L r ((m, saved) :: segs) t (bind (complete m k) g) R.
  Proof.
    intros Hk He HM Hg H n Hn. apply J_good. intros G. apply J_complete; [|now apply H]. intros _. split; [|now apply Hg].
    split; [|now intros ->]. rewrite Hk, cn_parts. exact HM.
  Qed.
  Lemma L_precede (A : Set) r segs o c x rc (g : nat -> prog A) R :
    (forall m, L r ((m, o) :: segs) (ILock x :: map lock rc) (g m) R) -> L r segs (o ++ INode c x :: rc) (bind (precede c) g) R.
  Proof. intros H n Hn. apply J_precede. intros m. now apply H. Qed.
  Lemma L_precede0 (A : Set) r segs c x rc (g : nat -> prog A) R :
    (forall m, L r ((m, []) :: segs) (ILock x :: map lock rc) (g m) R) -> L r segs (INode c x :: rc) (bind (precede c) g) R.
  Proof. apply (L_precede _ _ _ []). Qed.
  Lemma L_expr (A : Set) r segs t bp (g : option nat -> prog A) R :
    (forall a r1 t1, Forall good t1 -> match a with Some c => EX bp c r1 t1 | None => t1 = [] end -> L r1 segs (t ++ t1) (g a) R) ->
    L r segs t (bind (parse_twig_expression_binding_power bp) g) R.
  Proof.
    intros H n Hn. unfold parse_twig_expression_binding_power. eapply J_call.
    - intros m Hm. apply HC. lia.
    - cbn [Rs]. intros a r1 t1 G Ha. now apply (H a r1 t1 G Ha).
  Qed.
  Lemma L_iter (X B : Set) r t (f : X -> prog (X + B)) x (I : X -> list token -> list item -> Prop) (R : res_spec B) :
    I x r t ->
    (forall x r t, I x r t -> L r [] t (f x) (fun y r' t' => match y with inr b => R b r' t' | inl x' => I x' r' t' end)) ->
    L r [] t (Iter f x (fun b => Ret b)) R.
  Proof.
    intros H0 Hf n Hn. apply J_iter with (I := I); [exact H0|]. intros m x1 r1 t1 Hm _ HI. apply (Hf x1 r1 t1 HI). lia.
  Qed.

  Lemma kx_expect k set : K [] [] (expect k set) no_part.
  Proof. apply K_tail. apply K_expect. intros a t H. now apply K_ret. Qed.
  Lemma kx_missing b e set : K [] [] (when b (add_error e ;; recover set)) (fun _ t => cn t = [] /\ (b = false -> t = [])).
  Proof.
    destruct b; cbn [when]; [|now apply K_ret]. apply K_error. apply K_tail. apply K_recover. intros t H. apply K_ret.
    split; [exact H|discriminate].
  Qed.
  Lemma cn_locked c x b : cn (ILock x :: map lock b) = cn (INode c x :: b).
  Proof. now rewrite !cn_cons, cn_lock. Qed.

  (** an operand *)
  Definition operand (ks : list kind) (P : option (list opr) -> list token -> Prop) (c : nat) (r : list token) (t : list item) : Prop :=
    exists k cs b, t = INode c (Node k cs) :: b /\ Forall unk b /\ In k ks /\ k <> ERROR /\ P (right_edge (Node k cs)) r.
  Definition ended (x : option (list opr)) (r : list token) : Prop := closed x \/ stops x r.
  Lemma operand_one1 ks P c r t : operand ks P c r t -> one1 ks c t.
  Proof. intros (k & cs & b & -> & Hb & Hk & He & _). exists k, cs, b. auto. Qed.
  Lemma operand_node ks (P : option (list opr) -> list token -> Prop) k c r cs : mem_kind k ks = true -> not_error k = true ->
    P (right_edge (Node k cs)) r -> operand ks P c r [INode c (Node k cs)].
  Proof.
    intros H E HP. exists k, cs, []. repeat split; auto; [now apply mem_kind_in|]. now intros ->.
  Qed.
  Lemma stops_drop x r : stops x (drop_trivia r) <-> stops x r.
  Proof. unfold stops, below, next_power. destruct x; [|tauto]. now rewrite drop_idem. Qed.
  Lemma stops_same x r r' : drop_trivia r = drop_trivia r' -> stops x r -> stops x r'.
  Proof. intros E H. rewrite <- stops_drop, <- E. now rewrite stops_drop. Qed.
  (** a node whose right part is what follows the last token *)
  Lemma after_expression k bp c r te pre : EX bp c r te -> Forall good te ->
    fold_left (last_step k) (trees te) pre = right_edge (Node TWIG_EXPRESSION (match te with INode _ (Node _ cs) :: _ => cs | _ => [] end)).
  Proof.
    intros (cs & b & -> & Hb & _ & _) G. inversion G as [|? ? _ Gb]; subst. rewrite trees_cons, fold_left_app.
    rewrite (last_junks _ _ _ (unk_junks _ Gb Hb)). reflexivity.
  Qed.
  Lemma finished_stops o bp c r te : EX bp c r te -> right_power o = bp ->
    stops (with_last o (right_edge (Node TWIG_EXPRESSION (match te with INode _ (Node _ cs) :: _ => cs | _ => [] end)))) r.
  Proof.
    intros (cs & b & -> & Hb & _ & F) E. unfold finished in F. destruct (right_edge (Node TWIG_EXPRESSION cs)) as [os|]; [|exact I].
    cbn [with_last stops]. destruct F as (F1 & F2 & F3). split; [exact F1|]. constructor; [now rewrite E|exact F3].
  Qed.

  Lemma lx_function r t c : one1 operands c t -> l_at TK_OPEN_PARENTHESIS (drop_trivia r) = true ->
    L r [] t (parse_twig_function c) (operand operands ended).
  Proof.
    intros H At. pose proof (one1_sem _ _ _ H) as Hs. destruct H as (k & cs & b & -> & Hb & Hk & He).
    unfold parse_twig_function. apply L_dassert. intros r' Hr'. rewrite <- Hr' in At. apply L_precede0. intros m.
    eapply L_complete; [reflexivity|reflexivity|rewrite (cn_locked c); left; right; exact Hs|intros _; exact I|]. intros _.
    cbn [app]. apply L_precede0. intros outer. cbn [map]. apply L_start. intros am. apply L_bump. intros tok ts tr E Gt. cbn [app].
    rewrite E in At. apply kind_eqb_eq in At. rewrite At in *.
    eapply L_kapp; [apply kx_arguments|]. intros a1 r1 t1 G1 H1. eapply L_kapp; [apply kx_expect|]. intros a2 r2 t2 G2 H2. cbv beta in H1; unfold no_part in H2.
    eapply L_complete; [reflexivity|reflexivity| |intros _; exact I|].
    { rewrite !cn_app, H2, app_nil_r. left. exact H1. }
    intros G. apply L_tail. eapply L_complete; [reflexivity|reflexivity| |intros _; exact I|].
    { smn. }
    intros G'. apply L_ret. cbn [app]. apply operand_node; [reflexivity|reflexivity|]. left. rewrite right_edge_eq.
    rewrite trees_cons, !last_app. cbn [trees flat_map item_trees app fold_left last_step].
    rewrite right_edge_eq, !trees_app. cbn [trees flat_map item_trees app]. rewrite !existsb_app. cbn [existsb is_open_parenthesis].
    rewrite !orb_true_r. exact I.
  Qed.

  (** operands that are closed because of their kind *)
  Definition plain_operands : list kind :=
    [TWIG_LITERAL_NAME; TWIG_LITERAL_NUMBER; TWIG_LITERAL_STRING; TWIG_LITERAL_ARRAY; TWIG_LITERAL_NULL;
     TWIG_LITERAL_BOOLEAN; TWIG_LITERAL_HASH; TWIG_ACCESSOR; TWIG_FILTER; TWIG_INDEX_LOOKUP; TWIG_PARENTHESES_EXPRESSION].
  Lemma plain_operand k c r t : mem_kind k plain_operands = true -> one1 [k] c t -> operand operands ended c r t.
  Proof.
    intros Hp (k' & cs & b & -> & Hb & [<-|[]] & He). exists k, cs, b. repeat split; auto.
    - apply mem_kind_in. destruct k; try discriminate Hp; reflexivity.
    - left. rewrite right_edge_eq. destruct k; try discriminate Hp; exact I.
  Qed.
  Lemma lx_accessor r t c : one1 operands c t -> L r [] t (parse_twig_accessor c) (operand operands ended).
  Proof.
    intros H. pose proof (one1_sem _ _ _ H) as Hs. destruct H as (k & cs & b & -> & Hb & Hk & He).
    unfold parse_twig_accessor. apply L_dassert. intros r' _. apply L_precede0. intros m.
    eapply L_complete; [reflexivity|reflexivity|rewrite (cn_locked c); left; right; exact Hs|intros _; exact I|]. intros _.
    cbn [app]. apply L_precede0. intros outer. cbn [map]. apply L_bump. intros tok ts tr E Gt. apply L_start. intros m1. apply L_look.
    destruct (l_at TK_NUMBER (drop_trivia ts)).
    - eapply L_mono; [apply L_K|]; [|intros a r1 t1 H1; apply (plain_operand TWIG_INDEX_LOOKUP); [reflexivity|exact H1]].
      kcall kx_number. kprec. ksteps. kfin.
    - eapply L_kapp; [apply kx_name|]. intros a1 r1 t1 G1 H1. apply may1_sem in H1. eapply L_kapp; [apply kx_missing|]. intros a2 r2 t2 G2 [H2 _].
      eapply L_complete; [reflexivity|reflexivity| |intros _; exact I|].
      { rewrite cn_app, H2, app_nil_r. left. destruct H1 as [H1|H1]; [left; exact H1|right].
        eapply sem_nd_incl; [exact H1|reflexivity]. }
      intros _. eapply L_complete; [reflexivity|reflexivity| |intros _; exact I|].
      { smn. }
      intros _. cbn [app]. apply L_look. destruct (l_at TK_OPEN_PARENTHESIS (drop_trivia r2)) eqn:At.
      + apply lx_function; [apply one1_node; reflexivity|]. now rewrite drop_idem.
      + apply L_ret. apply (plain_operand TWIG_ACCESSOR); [reflexivity|]. now apply one1_self.
  Qed.
  Lemma lx_implicit r t c : one1 operands c t -> L r [] t (parse_twig_test_implicit_argument c) (operand operands ended).
  Proof.
    intros H. pose proof (one1_sem _ _ _ H) as Hs. destruct H as (k & cs & b & -> & Hb & Hk & He).
    unfold parse_twig_test_implicit_argument. apply L_precede0. intros m.
    eapply L_complete; [reflexivity|reflexivity|rewrite (cn_locked c); left; right; exact Hs|intros _; exact I|]. intros _.
    cbn [app]. apply L_precede0. intros outer. cbn [map]. apply L_start. intros am.
    apply L_expr. intros a r1 t1 G1 H1. cbn [app]. destruct a as [c1|].
    - cbn [is_none when bind]. eapply L_complete; [reflexivity|reflexivity| |intros _; exact I|].
      { left. apply sem_many_one. eapply sem_nd_incl; [eapply one1_sem, EX_one1, H1|reflexivity]. }
      intros _. apply L_tail. eapply L_complete; [reflexivity|reflexivity|smn|intros _; exact I|].
      intros _. apply L_ret. cbn [app]. apply operand_node; [reflexivity|reflexivity|]. right. rewrite right_edge_eq.
      rewrite trees_cons, !last_app. cbn [trees flat_map item_trees app fold_left last_step]. rewrite right_edge_eq.
      assert (NP : existsb is_open_parenthesis (trees t1) = false).
      { destruct H1 as (cs1 & b1 & -> & Hb1 & _). inversion G1 as [|? ? _ Gb]; subst. rewrite trees_cons. cbn [item_trees app existsb is_open_parenthesis orb].
        pose proof (unk_junks _ Gb Hb1) as Jb. induction Jb as [|x l (k1 & s1 & -> & Ej) _ IH]; [reflexivity|]. cbn [existsb]. rewrite IH, orb_false_r.
        destruct k1; try reflexivity. discriminate Ej. }
      rewrite NP. unfold last_edge. rewrite (after_expression _ 0 c1 r1 _ _ H1 G1). now apply (finished_stops Low 0 c1).
    - subst t1. cbn [app]. eapply L_kapp; [apply kx_missing|]. intros [] r2 t2 G2 [H2 _]. cbn [app].
      eapply L_complete; [reflexivity|reflexivity| |intros _; exact I|].
      { rewrite H2. left. apply sem_many_nil. }
      intros _. apply L_tail. eapply L_complete; [reflexivity|reflexivity|smn|intros _; exact I|].
      intros _. apply L_ret. cbn [app]. apply operand_node; [reflexivity|reflexivity|]. left. rewrite right_edge_eq.
      rewrite trees_cons, !last_app. cbn [trees flat_map item_trees app fold_left last_step]. rewrite right_edge_eq.
      destruct (existsb is_open_parenthesis _); [exact I|]. unfold last_edge. rewrite last_no_part by assumption. exact I.
  Qed.
  Lemma lx_arrow r t c : one1 [TWIG_ARGUMENTS] c t -> L r [] t (parse_twig_arrow_function c) (operand operands stops).
  Proof.
    intros H. pose proof (one1_sem _ _ _ H) as Hs. destruct H as (k & cs & b & -> & Hb & Hk & He).
    unfold parse_twig_arrow_function. apply L_dassert_site. intros r' _. apply L_good. intros Gb. apply L_precede0. intros outer.
    apply L_bump_site. intros tok ts tr _ Gt.
    assert (P : forall k1, last_edge TWIG_ARROW_FUNCTION (trees ((ILock (Node k cs) :: map lock b) ++ [ITok tr k1 [tok]])) = None).
    { intros k1. destruct Hk as [<-|[]]. rewrite trees_app, trees_cons, trees_lock, !last_app. cbn [item_trees app].
      inversion Gb as [|? ? _ Gb']; subst. rewrite (last_junks _ (trees b) _ (unk_junks _ Gb' Hb)).
      cbn [trees flat_map item_trees app last_edge fold_left last_step].
      rewrite app_nil_r, fold_left_app, (last_junks _ _ _ (trivia_junks _ Gt)). cbn [fold_left last_step]. now destruct (junk k1). }
    apply L_expr. intros a r1 t1 G1 H1. destruct a as [c1|].
    - cbn [is_none when bind]. apply L_tail. eapply L_complete; [reflexivity|reflexivity| |intros _; exact I|].
      { apply EX_one1, one1_sem in H1. rewrite !cn_app, (cn_locked c). revert Hs. generalize (cn (INode c (Node k cs) :: b)). intros l0 Hs. smn. }
      intros _. apply L_ret. rewrite app_nil_l. apply operand_node; [reflexivity|reflexivity|]. rewrite right_edge_eq.
      rewrite trees_app, last_app, (after_expression _ 0 c1 r1 _ _ H1 G1). now apply (finished_stops Low 0 c1).
    - subst t1. rewrite app_nil_r. eapply L_kapp; [apply kx_missing|]. intros [] r2 t2 G2 [H2 _].
      apply L_tail. eapply L_complete; [reflexivity|reflexivity| |intros _; exact I|].
      { rewrite !cn_app, (cn_locked c). revert Hs. generalize (cn (INode c (Node k cs) :: b)). intros l0 Hs. smn. }
      intros _. apply L_ret. rewrite app_nil_l. apply operand_node; [reflexivity|reflexivity|]. rewrite right_edge_eq.
      rewrite trees_app, last_app, P, last_no_part by assumption. exact I.
  Qed.
  Lemma L_get_pos (A : Set) r segs t (g : nat -> prog A) R :
    (length r <= length T -> L r segs t (g (length T - length r)) R) -> L r segs t (bind get_pos g) R.
  Proof. intros H n Hn. apply J_get_pos_exact. intros Hr. now apply H. Qed.
  Lemma L_eats (A : Set) r segs t (p : prog A) (R : res_spec A) : eats p -> L r segs t p R ->
    L r segs t p (fun a r' t' => R a r' t' /\ length r' < length r).
  Proof. intros E H n Hn. apply J_eats; [exact E|]. now apply H. Qed.
  Lemma K_L (A : Set) segs t (p : prog A) R : (forall r, L r segs t p (fun a _ t' => R a t')) -> K segs t p R.
  Proof. intros H n r Hn. now apply H. Qed.
  Lemma ended_stops x r : ended x r -> l_at TK_UNKNOWN (drop_trivia r) = false -> stops x r.
  Proof. intros [H|H] E; [|exact H]. destruct x as [[|o os]|]; cbn [stops closed] in *; auto; contradiction. Qed.
  Lemma ended_unknown x r r' : ended x r -> l_at TK_UNKNOWN (drop_trivia r) = true -> ended x r'.
  Proof.
    intros [H|H] E; [now left|]. destruct x as [os|]; [|now left]. cbn [stops] in H. destruct H as [H _]. congruence.
  Qed.
  Lemma ended_drop x r : ended x r -> ended x (drop_trivia r).
  Proof. intros [H|H]; [now left|right]. now apply stops_drop. Qed.
  Lemma operand_impl ks (P Q : option (list opr) -> list token -> Prop) c r r' t :
    (forall x, P x r -> Q x r') -> operand ks P c r t -> operand ks Q c r' t.
  Proof. intros H (k & cs & b & -> & Hb & Hk & He & HP). exists k, cs, b. auto 6. Qed.
  Lemma operand_unk ks P c r t i : operand ks P c r t -> unk i -> operand ks P c r (t ++ [i]).
  Proof. intros (k & cs & b & -> & Hb & Hk & He & HP) Hi. exists k, cs, (b ++ [i]). repeat split; auto. apply Forall_app. auto. Qed.

  Ltac eat := repeat first [apply eats_bump_then | apply eats_then; intros ?].
  Lemma lx_postfix r t c : operand operands ended c r t -> L r [] t (parse_postfix_operators c) (operand operands stops).
  Proof.
    intros H. unfold parse_postfix_operators, parse_many_st. apply L_iter with (I := operand operands ended); [exact H|].
    clear r t c H. intros c r t H. apply L_get_pos. intros Hlen. apply L_look.
    destruct (l_at TK_UNKNOWN (drop_trivia r)) eqn:EU.
    { apply L_bump. intros tok ts tr E Gt. rewrite drop_idem in E. pose proof EU as EU'. rewrite E in EU'. cbn [l_at] in EU'. apply kind_eqb_eq in EU'.
      rewrite EU' in *. apply L_ret. apply operand_unk; [|exact I]. eapply operand_impl; [|exact H]. intros x Hx. eapply ended_unknown; eauto. }
    apply L_look. rewrite drop_idem. destruct (l_at_end (drop_trivia r)).
    { apply L_ret. eapply operand_impl; [|exact H]. intros x Hx. apply stops_drop. now apply ended_stops. }
    cbn [bind].
    assert (D : forall p : prog nat, eats p -> L (drop_trivia r) [] t p (operand operands ended) ->
      L (drop_trivia r) [] t (x2 <- p ;; pos <- get_pos ;;
        if Nat.eqb pos (length T - length r) then Ret (inr x2) else Ret (inl x2))
        (fun (y : nat + nat) r' t' => match y with inr b => operand operands stops b r' t' | inl x' => operand operands ended x' r' t' end)).
    { intros p Ep Hp. eapply L_bind; [apply L_eats; [exact Ep|exact Hp]|]. cbv beta. intros c1 r1 t1 [H1 L1]. apply L_get_pos. intros Hlen1.
      destruct (Nat.eqb_spec (length T - length r1) (length T - length r)) as [X|X].
      - exfalso. pose proof (drop_length r). lia.
      - now apply L_ret. }
    apply L_assoc. apply L_look. rewrite drop_idem. destruct (l_at TK_DOT (drop_trivia r)).
    { apply D; [eat|]. apply lx_accessor. eapply operand_one1, H. }
    apply L_assoc. apply L_look. rewrite drop_idem. destruct (l_at TK_OPEN_SQUARE (drop_trivia r)).
    { apply D; [eat|]. eapply L_mono; [apply L_K, kx_indexer; eapply operand_one1, H|]. intros a r1 t1 H1.
      apply (plain_operand TWIG_INDEX_LOOKUP); [reflexivity|exact H1]. }
    apply L_assoc. apply L_look. rewrite drop_idem. destruct (l_at TK_SINGLE_PIPE (drop_trivia r)).
    { apply D; [eat|]. eapply L_mono; [apply L_K, kx_filter; eapply operand_one1, H|]. intros a r1 t1 H1.
      apply (plain_operand TWIG_FILTER); [reflexivity|exact H1]. }
    cbn [bind]. apply L_get_pos. intros _.
    destruct (Nat.eqb _ _); apply L_ret; (eapply operand_impl; [|exact H]).
    - intros x Hx. apply stops_drop. now apply ended_stops.
    - intros x. apply ended_drop.
  Qed.
  Definition mayL (ks : list kind) P (a : option nat) (r : list token) (t : list item) : Prop :=
    match a with Some c => operand ks P c r t | None => t = [] end.
  Lemma lx_literal r : L r [] [] parse_twig_literal (mayL operands ended).
  Proof.
    assert (S : forall k p, mem_kind k plain_operands = true -> K [] [] p (one1 [k]) ->
      forall r, L r [] [] (m <- p ;; Ret (Some m)) (mayL operands ended)).
    { intros k p Hk Hp r1. eapply L_kapp; [exact Hp|]. intros a r2 t2 _ H2. apply L_ret. cbn [app mayL]. now apply (plain_operand k). }
    unfold parse_twig_literal.
    apply L_look. destruct (l_at _ _); [apply (S TWIG_LITERAL_NUMBER); [reflexivity|apply kx_number]|].
    apply L_look. destruct (l_at_set _ _); [apply (S TWIG_LITERAL_STRING); [reflexivity|apply kx_string]|].
    apply L_look. destruct (l_at _ _); [apply (S TWIG_LITERAL_ARRAY); [reflexivity|apply kx_array]|].
    apply L_look. destruct (l_at _ _); [apply (S TWIG_LITERAL_NULL); [reflexivity|apply kx_null]|].
    apply L_look. destruct (l_at_set _ _); [apply (S TWIG_LITERAL_BOOLEAN); [reflexivity|apply kx_boolean]|].
    apply L_look. destruct (l_at _ _); [apply (S TWIG_LITERAL_HASH); [reflexivity|apply kx_hash]|].
    clear S. apply L_look. eapply L_kapp; [apply kx_name|]. intros a1 r1 t1 G1 H1. cbn [app].
    destruct a1 as [c1|]; cbn [may1] in H1; [|now apply L_ret].
    apply L_look. destruct (l_at TK_OPEN_PARENTHESIS (drop_trivia r1)) eqn:At.
    { eapply L_bind; [apply lx_function; [eapply one1_sub; [exact H1|reflexivity]|now rewrite drop_idem]|].
      intros a2 r2 t2 H2. now apply L_ret. }
    apply L_look. destruct (l_at TK_EQUAL_GREATER_THAN _).
    { pose proof (one1_sem _ _ _ H1) as Hs. destruct H1 as (k & cs & b & -> & Hb & Hk & He).
      apply L_precede0. intros m. eapply L_complete; [reflexivity|reflexivity| |intros _; exact I|].
      { rewrite (cn_locked c1). right. apply sem_many_one. exact Hs. }
      intros _. cbn [app]. eapply L_bind; [apply lx_arrow; apply one1_self; reflexivity|].
      intros a2 r2 t2 H2. apply L_ret. cbn [mayL]. eapply operand_impl; [|exact H2]. intros x Hx. now right. }
    assert (Z : forall r2 (p q : prog (option nat)), L r2 [] t1 p (mayL operands ended) -> L r2 [] t1 q (mayL operands ended) ->
      forall x, L r2 [] t1 (match x with Some TK_SAME_AS | Some TK_DIVISIBLE_BY => p | _ => q end) (mayL operands ended))
      by (intros r2 p q Hp Hq x; destruct x as [[]|]; assumption).
    apply Z; clear Z.
    - eapply L_bind; [apply lx_implicit; eapply one1_sub; [exact H1|reflexivity]|]. intros a2 r2 t2 H2. now apply L_ret.
    - apply L_ret. now apply (plain_operand TWIG_LITERAL_NAME).
  Qed.

  (** how the right part of an operator contributes to the edges *)
  Lemma begins_all k c r te : right_power k <> 0 -> EX (right_power k) c r te -> Forall good te ->
    Forall (begins_right k) (operands_of (trees te)).
  Proof.
    intros Hk (cs & b & -> & Hb & Hl & _) G. inversion G as [|? ? _ Gb]; subst. rewrite trees_cons, operands_app.
    rewrite (operands_no_part b) by (auto using unk_cn). cbn [item_trees]. rewrite app_nil_r. constructor; [|constructor].
    unfold begins_right. eapply Forall_impl; [|exact Hl]. cbv beta. intros o Ho. now apply may_begin.
  Qed.

  Lemma lx_unary r : L r [] [] parse_unary_expression (operand [TWIG_UNARY_EXPRESSION] stops).
  Proof.
    unfold parse_unary_expression. apply L_dassert. intros r' _. apply L_start. intros m. apply L_bump. intros tok ts tr E Gt.
    destruct (unary_binding_power (tk_kind tok)) as [bp|] eqn:EP.
    2: { intros n Hn. apply J_tail, J_fail. }
    assert (Hp : right_power (Pre (tk_kind tok)) = bp) by (cbn [right_power]; now rewrite EP).
    assert (O : forall b, operator true (trees (([] ++ [ITok tr (tk_kind tok) [tok]]) ++ b)) = Some (tk_kind tok)).
    { intros b. cbn [app]. rewrite trees_cons. apply operator_tok; [exact Gt|]. eapply (unary_level _ _ EP). }
    apply L_expr. intros a r1 t1 G1 H1. apply L_tail. eapply L_complete; [reflexivity|reflexivity| | |].
    - destruct a as [c1|]; [|subst t1; smn]. apply EX_one1, one1_sem in H1. smn.
    - intros _. exists (tk_kind tok). split; [apply O|]. cbn [app]. rewrite trees_cons, operands_tok.
      destruct a as [c1|]; [|subst t1; constructor]. apply begins_all with (c := c1) (r := r1); auto; rewrite Hp; [|exact H1].
      now apply (unary_positive _ _ EP).
    - intros _. apply L_ret. rewrite app_nil_l. apply operand_node; [reflexivity|reflexivity|]. rewrite right_edge_eq.
      rewrite O. rewrite trees_app, last_app. destruct a as [c1|].
      + rewrite (after_expression _ bp c1 r1 _ _ H1 G1). now apply (finished_stops (Pre (tk_kind tok)) bp c1).
      + subst t1. cbn [app trees flat_map]. rewrite app_nil_r. cbn [fold_left]. unfold last_edge.
        rewrite (last_tok _ _ _ _ _ Gt (unary_plain _ _ EP)). exact I.
  Qed.

  (** the left operand in the operator loop *)
  Definition lhs_ok (bp : nat) (k : kind) (c : nat) (r : list token) (t : list item) : Prop :=
    exists cs b, t = INode c (Node k cs) :: b /\ Forall unk b /\
      Forall (fun o => bp <= left_power o) (left_edge (Node k cs)) /\ stops (right_edge (Node k cs)) r.
  Definition lhs_kind (is_binary : bool) : kind := if is_binary then TWIG_BINARY_EXPRESSION else TWIG_EXPRESSION.
  (** the loop is left: no operator follows that is for this loop *)
  Definition lhs_end (bp : nat) (k : kind) (c : nat) (r : list token) (t : list item) : Prop :=
    exists cs b, t = INode c (Node k cs) :: b /\ Forall unk b /\
      Forall (fun o => bp <= left_power o) (left_edge (Node k cs)) /\ stops (right_edge (Node k cs)) r /\
      (right_edge (Node k cs) <> None -> below r bp \/ l_at TK_QUESTION_MARK (drop_trivia r) = true).
  Lemma lhs_to_end bp k c r t : lhs_ok bp k c r t -> below r bp \/ l_at TK_QUESTION_MARK (drop_trivia r) = true -> lhs_end bp k c r t.
  Proof. intros (cs & b & -> & Hb & Hl & Hs) H. exists cs, b. auto 6. Qed.
  Lemma lhs_one1 bp k c r t : not_error k = true -> lhs_ok bp k c r t -> one1 [k] c t.
  Proof.
    intros E (cs & b & -> & Hb & _). exists k, cs, b. repeat split; auto; [now left|]. now intros ->.
  Qed.
  Lemma lhs_drop bp k c r t : lhs_ok bp k c r t -> lhs_ok bp k c (drop_trivia r) t.
  Proof. intros (cs & b & -> & Hb & Hl & Hs). exists cs, b. repeat split; auto. now apply stops_drop. Qed.
  Lemma below_drop r p : below (drop_trivia r) p <-> below r p.
  Proof. unfold below, next_power. now rewrite drop_idem. Qed.
  Lemma next_none r bp : match drop_trivia r with tok :: _ => binary_binding_power (tk_kind tok) | [] => None end = None ->
    below r bp \/ l_at TK_QUESTION_MARK (drop_trivia r) = true.
  Proof.
    unfold below, next_power. destruct (drop_trivia r) as [|tok ts]; [now left|]. intros E. cbn [l_at].
    destruct (tk_kind tok) eqn:Ek; cbn [binary_binding_power] in *; try discriminate E; auto.
  Qed.
  Lemma next_power_some r tok ts l rr : drop_trivia r = tok :: ts -> binary_binding_power (tk_kind tok) = Some (l, rr) ->
    next_power r = Some l.
  Proof.
    intros E H. unfold next_power. rewrite E. destruct (tk_kind tok); cbn [binary_binding_power] in *; try discriminate H; now injection H as -> _.
  Qed.

  Lemma lx_binary bp : forall r t c, lhs_ok bp TWIG_EXPRESSION c r t ->
    L r [] t (binary_loop bp c) (fun x r' t' => lhs_end bp (lhs_kind (snd x)) (fst x) r' t').
  Proof.
    intros r t c H. unfold binary_loop. apply L_iter with (I := fun x r' t' => lhs_ok bp (lhs_kind (snd x)) (fst x) r' t'); [exact H|].
    clear r t c H. intros [c isb] r t H. cbn [fst snd] in H. apply L_look.
    apply lhs_drop in H. set (r0 := drop_trivia r) in *. assert (D0 : drop_trivia r0 = r0) by apply drop_idem. clearbody r0.
    destruct (match hd_error r0 with Some t0 => binary_binding_power (tk_kind t0) | None => None end) as [[l rr]|] eqn:EP.
    2: { apply L_ret. cbn [fst snd]. apply lhs_to_end; [exact H|]. apply next_none. rewrite D0.
         destruct r0; [reflexivity|]. exact EP. }
    destruct r0 as [|tok ts]; [discriminate EP|]. cbn [hd_error] in EP.
    assert (NP : next_power (tok :: ts) = Some l) by (eapply next_power_some; [exact D0|exact EP]).
    destruct (Nat.ltb_spec l bp) as [Hlt|Hge].
    { apply L_ret. cbn [fst snd]. apply lhs_to_end; [exact H|]. left. unfold below. now rewrite NP. }
    apply L_good. intros G.
    assert (Hone : one1 [TWIG_EXPRESSION; TWIG_BINARY_EXPRESSION] c t).
    { destruct isb; (eapply one1_sub; [eapply lhs_one1; [|exact H]; reflexivity|reflexivity]). }
    assert (Hsem := one1_sem _ _ _ Hone). clear Hone.
    destruct H as (cs & b & -> & Hb & Hl & Hs). set (lk := lhs_kind isb) in *.
    assert (Hlk : is_part (Node lk cs) = true) by (subst lk; destruct isb; reflexivity). clearbody lk.
    inversion G as [|? ? _ Gb]; subst. apply L_bump. intros tok' ts' tr E Gt. rewrite D0 in E. injection E as <- <-.
    cbn [app]. apply L_precede0. intros m. rewrite map_app. cbn [map lock].
    assert (Hp : right_power (Bin (tk_kind tok)) = rr) by (cbn [right_power]; now rewrite EP).
    assert (Jb := unk_junks _ Gb Hb).
    assert (TE : forall te, trees ((ILock (Node lk cs) :: map lock b ++ [ITok tr (tk_kind tok) [tok]]) ++ te)
      = Node lk cs :: trees b ++ item_trees (ITok tr (tk_kind tok) [tok]) ++ trees te).
    { intros te. cbn [app]. rewrite trees_cons, !trees_app, trees_lock. cbn [item_trees app]. rewrite <- app_assoc. f_equal. f_equal.
      rewrite trees_cons. cbn [trees flat_map]. now rewrite app_nil_r. }
    assert (O : forall te, operator false (trees ((ILock (Node lk cs) :: map lock b ++ [ITok tr (tk_kind tok) [tok]]) ++ te)) = Some (tk_kind tok)).
    { intros te. rewrite TE. cbn [operator]. rewrite operator_junks by exact Jb. apply operator_tok; [exact Gt|]. eapply (binary_level _ _ EP). }
    assert (OP : forall te, operands_of (trees ((ILock (Node lk cs) :: map lock b ++ [ITok tr (tk_kind tok) [tok]]) ++ te))
      = Node lk cs :: operands_of (trees te)).
    { intros te. rewrite TE. unfold operands_of at 1. cbn [filter]. rewrite Hlk. f_equal.
      change (operands_of (trees b ++ item_trees (ITok tr (tk_kind tok) [tok]) ++ trees te) = operands_of (trees te)).
      rewrite operands_app, operands_tok, (operands_no_part b) by (auto using unk_cn). reflexivity. }
    apply L_expr. intros a r1 t1 G1 H1. eapply L_complete; [reflexivity|reflexivity| | |].
    - rewrite cn_app. change (ILock (Node lk cs) :: map lock b ++ [ITok tr (tk_kind tok) [tok]])
        with ((ILock (Node lk cs) :: map lock b) ++ [ITok tr (tk_kind tok) [tok]]). rewrite cn_app, (cn_locked c).
      revert Hsem. generalize (cn (INode c (Node lk cs) :: b)). intros l0 Hsem.
      destruct a as [c1|]; [|subst t1; smn]. apply EX_one1, one1_sem in H1. smn.
    - intros _. exists (tk_kind tok), (Node lk cs), (operands_of (trees t1)). repeat split.
      + apply O.
      + apply OP.
      + unfold ends_left. destruct (right_edge (Node lk cs)) as [os|]; [|exact I]. cbn [stops] in Hs. destruct Hs as [_ Hs].
        eapply Forall_impl; [|exact Hs]. cbv beta. intros o Ho. unfold below in Ho. rewrite NP in Ho. eapply may_end; eauto.
      + destruct a as [c1|]; [|subst t1; constructor]. apply begins_all with (c := c1) (r := r1); auto; rewrite Hp; [|exact H1].
        now apply (binary_positive _ _ _ EP).
    - intros _. rewrite app_nil_l.
      assert (LE : Forall (fun o => bp <= left_power o)
        (left_edge (Node TWIG_BINARY_EXPRESSION (trees ((ILock (Node lk cs) :: map lock b ++ [ITok tr (tk_kind tok) [tok]]) ++ t1))))).
      { rewrite left_edge_eq, O. unfold first_edge. rewrite OP. constructor; [|exact Hl]. cbn [left_power]. rewrite EP. lia. }
      destruct a as [c1|]; cbn [is_none].
      + apply L_ret. cbn [fst snd lhs_kind]. eexists _, []. split; [reflexivity|]. split; [constructor|]. split; [exact LE|].
        rewrite right_edge_eq, O, TE. unfold last_edge. cbn [fold_left].
        rewrite !fold_left_app, (after_expression _ rr c1 r1 _ _ H1 G1). now apply (finished_stops (Bin (tk_kind tok)) rr c1).
      + subst t1. apply L_ret. cbn [fst snd lhs_kind]. eexists _, []. split; [reflexivity|]. split; [constructor|]. split; [exact LE|].
        rewrite right_edge_eq, O, TE. unfold last_edge. cbn [fold_left].
        rewrite !fold_left_app, (last_tok _ _ _ _ _ Gt (binary_plain _ _ EP)). cbn [trees flat_map fold_left with_last stops].
        split; [exact I|]. intros []. reflexivity.
  Qed.

  (** an expression around an operand or an operation *)
  Definition wrappable (k : kind) : bool := match k with ERROR | TWIG_ARGUMENTS => false | _ => true end.
  Lemma wrapped_right k cs b : wrappable k = true -> junks b ->
    right_edge (Node TWIG_EXPRESSION (Node k cs :: b)) = right_edge (Node k cs).
  Proof.
    intros W Jb. rewrite right_edge_eq. unfold last_edge. cbn [fold_left].
    assert (E : last_step TWIG_EXPRESSION None (Node k cs) = right_edge (Node k cs)) by (destruct k; try discriminate W; reflexivity).
    rewrite E. now apply last_junks.
  Qed.
  Lemma wrapped_left k cs b : wrappable k = true -> left_edge (Node TWIG_EXPRESSION (Node k cs :: b)) = left_edge (Node k cs).
  Proof.
    intros W. rewrite left_edge_eq. unfold first_edge, operands_of. cbn [filter].
    assert (E : is_part (Node k cs) = true) by (destruct k; try discriminate W; reflexivity). now rewrite E.
  Qed.

  Lemma lx_conditional r t c : lhs_end 0 TWIG_EXPRESSION c r t ->
    L r [] t (parse_conditional_expression c)
      (fun a r' t' => match a with Some c' => EX 0 c' r' t' | None => EX 0 c r' t' end).
  Proof.
    intros (cs & b & -> & Hb & Hl & Hs & He). unfold parse_conditional_expression. apply L_look.
    destruct (l_at TK_QUESTION_MARK (drop_trivia r)) eqn:EQ.
    2: { apply L_ret. exists cs, b. repeat split; auto. unfold finished. destruct (right_edge (Node TWIG_EXPRESSION cs)) as [os|] eqn:Er; [|exact I].
         cbn [stops] in Hs. destruct Hs as [H1 H2]. rewrite drop_idem. split; [exact H1|]. split.
         - apply below_drop. destruct He as [He|He]; [discriminate|exact He|discriminate].
         - eapply Forall_impl; [|exact H2]. cbv beta. intros o Ho. now apply below_drop. }
    assert (NP : next_power r = Some 0).
    { unfold next_power. destruct (drop_trivia r) as [|tok ts]; [discriminate|]. apply kind_eqb_eq in EQ. now rewrite EQ. }
    apply L_good. intros G. inversion G as [|? ? _ Gb]; subst. assert (Jb := unk_junks _ Gb Hb).
    assert (Hsem : sem (nd [TWIG_EXPRESSION]) (cn (INode c (Node TWIG_EXPRESSION cs) :: b))).
    { eapply (one1_sem _ c). exists TWIG_EXPRESSION, cs, b. repeat split; auto; [now left|discriminate]. }
    apply L_precede0. intros m. apply L_bump. intros tok ts tr E Gt. rewrite drop_idem in E. rewrite E in EQ. cbn [l_at] in EQ. apply kind_eqb_eq in EQ. rewrite EQ in *.
    set (hd := (ILock (Node TWIG_EXPRESSION cs) :: map lock b) ++ [ITok tr TK_QUESTION_MARK [tok]]) in *.
    assert (Hcn : sem (nd [TWIG_EXPRESSION]) (cn hd)).
    { subst hd. rewrite cn_app, (cn_locked c). revert Hsem. generalize (cn (INode c (Node TWIG_EXPRESSION cs) :: b)). intros l0 Hsem.
      cns. now rewrite app_nil_r. }
    assert (Hop : forall x, grouped TWIG_CONDITIONAL_EXPRESSION (trees (hd ++ x))).
    { intros x. exists (Node TWIG_EXPRESSION cs), (operands_of (trees b ++ trees [ITok tr TK_QUESTION_MARK [tok]] ++ trees x)). split.
      - subst hd. rewrite <- app_assoc. rewrite trees_app, trees_cons, trees_lock, trees_app. rewrite <- app_assoc. reflexivity.
      - unfold ends_left. destruct (right_edge (Node TWIG_EXPRESSION cs)) as [os|]; [|exact I]. cbn [stops] in Hs. destruct Hs as [_ Hs].
        eapply Forall_impl; [|exact Hs]. cbv beta. intros o Ho. unfold below in Ho. rewrite NP in Ho. now apply may_end_low. }
    assert (Hhd : last_edge TWIG_CONDITIONAL_EXPRESSION (trees hd) = None).
    { subst hd. rewrite trees_app, last_app. rewrite trees_cons. cbn [trees flat_map]. rewrite !app_nil_r. now apply last_tok. }
    clearbody hd.
    assert (F : forall r1 x, sem (opt expr >> opt expr) (cn x) ->
      stops (with_last Low (last_edge TWIG_CONDITIONAL_EXPRESSION (trees (hd ++ x)))) r1 ->
      (last_edge TWIG_CONDITIONAL_EXPRESSION (trees (hd ++ x)) <> None -> below r1 0) ->
      L r1 [(m, [])] (hd ++ x)
       (conditional_m <- complete m TWIG_CONDITIONAL_EXPRESSION ;;
        outer <- precede conditional_m ;;
        c0 <- complete outer TWIG_EXPRESSION ;; Ret (Some c0))
       (fun a r' t' => match a with Some c' => EX 0 c' r' t' | None => EX 0 c r' t' end)).
    { intros r1 x Hx Hst Hbe. eapply L_complete; [reflexivity|reflexivity| |intros _; apply Hop|].
      - rewrite cn_app. revert Hcn. generalize (cn hd). intros l0 Hcn. apply sem_seq; [exact Hcn|exact Hx].
      - intros _. rewrite app_nil_l. apply L_precede0. intros m1. cbn [map]. eapply L_complete; [reflexivity|reflexivity| |intros _; exact I|].
        { smn. }
        intros _. apply L_ret. cbn [app]. eexists _, []. split; [reflexivity|]. split; [constructor|].
        cbn [trees flat_map item_trees app]. change (flat_map item_trees (hd ++ x)) with (trees (hd ++ x)). split.
        + apply Forall_forall. intros o _. lia.
        + unfold finished. rewrite wrapped_right by (try reflexivity; constructor). rewrite right_edge_eq.
          destruct (last_edge TWIG_CONDITIONAL_EXPRESSION (trees (hd ++ x))) as [os|]; cbn [with_last]; [|exact I]. cbn [with_last stops] in Hst.
          destruct Hst as [H1 H2]. split; [exact H1|]. split; [|exact H2]. apply Hbe. discriminate. }
    (* after the second part, with [x] in front *)
    assert (F0 : forall x r1 te c1, EX 0 c1 r1 te -> Forall good te ->
       stops (with_last Low (last_edge TWIG_CONDITIONAL_EXPRESSION (trees (hd ++ x ++ te)))) r1 /\
       (last_edge TWIG_CONDITIONAL_EXPRESSION (trees (hd ++ x ++ te)) <> None -> below r1 0)).
    { intros x r1 te c1 H1 G1. rewrite app_assoc, trees_app, last_app, (after_expression _ 0 c1 r1 _ _ H1 G1). split.
      - now apply (finished_stops Low 0 c1).
      - destruct H1 as (cs1 & b1 & -> & _ & _ & Fi). unfold finished in Fi. destruct (right_edge (Node TWIG_EXPRESSION cs1)); [|intros []; reflexivity]. intros _. apply Fi. }
    assert (C : forall x r1, sem (opt expr) (cn x) ->
      ((exists x1 te c1, x = x1 ++ te /\ EX 0 c1 r1 te /\ Forall good te) \/ (cn x = [] /\ Forall good x)) ->
      L r1 [(m, [])] (hd ++ x)
       ((If at_ TK_COLON Then
           bump ;;
           e2 <- parse_twig_expression_binding_power 0 ;;
           when (is_none e2)
             (add_error "twig expression" ;;
              recover [TK_CLOSE_CURLY_CURLY; TK_MINUS_CLOSE_CURLY_CURLY; TK_TILDE_CLOSE_CURLY_CURLY; TK_PERCENT_CURLY; TK_MINUS_PERCENT_CURLY; TK_TILDE_PERCENT_CURLY])
         Else Ret tt) ;;
        conditional_m <- complete m TWIG_CONDITIONAL_EXPRESSION ;;
        outer <- precede conditional_m ;;
        c0 <- complete outer TWIG_EXPRESSION ;; Ret (Some c0))
       (fun a r' t' => match a with Some c' => EX 0 c' r' t' | None => EX 0 c r' t' end)).
    { intros x r1 Hx Hc. apply L_assoc. apply L_look. destruct (l_at TK_COLON (drop_trivia r1)) eqn:EC.
      - apply L_assoc. apply L_bump. intros tok2 ts2 tr2 E2 Gt2. rewrite drop_idem in E2. rewrite E2 in EC. cbn [l_at] in EC. apply kind_eqb_eq in EC. rewrite EC in *.
        apply L_assoc. apply L_expr. intros a2 r2 t2 G2 H2. repeat rewrite <- app_assoc. destruct a2 as [c2|].
        + cbn [is_none when bind]. destruct (F0 (x ++ [ITok tr2 TK_COLON [tok2]]) r2 t2 c2 H2 G2) as [Z1 Z2]. rewrite <- app_assoc in Z1, Z2.
          apply F; auto. apply EX_one1, one1_sem in H2. smn.
        + subst t2. rewrite app_nil_r. cbn [is_none when]. eapply L_kapp; [apply (kx_missing true)|]. intros a3 r3 t3 G3 [H3 _].
          rewrite <- app_assoc. rewrite <- app_assoc.
          assert (LN : last_edge TWIG_CONDITIONAL_EXPRESSION (trees (hd ++ x ++ [ITok tr2 TK_COLON [tok2]] ++ t3)) = None).
          { rewrite !trees_app, last_app, !fold_left_app. rewrite (trees_cons (ITok tr2 TK_COLON [tok2])). cbn [trees flat_map]. rewrite app_nil_r.
            rewrite (last_tok _ _ _ _ _ Gt2) by reflexivity. now apply last_no_part. }
          apply F; [smn|rewrite LN; exact I|rewrite LN; intros []; reflexivity].
      - cbn [bind]. destruct Hc as [(x1 & te & c1 & -> & H1 & G1)|[H1 G1]].
        + destruct (F0 x1 r1 te c1 H1 G1) as [Z1 Z2]. apply F.
          * rewrite <- (app_nil_r (cn _)). apply sem_seq; [exact Hx|now left].
          * now apply stops_drop.
          * intros Z. apply below_drop. auto.
        + assert (LN : last_edge TWIG_CONDITIONAL_EXPRESSION (trees (hd ++ x)) = None).
          { rewrite !trees_app, !last_app, Hhd. now apply last_no_part. }
          apply F; [smn|rewrite LN; exact I|rewrite LN; intros []; reflexivity]. }
    apply L_expr. intros a1 r1 t1 G1 H1. destruct a1 as [c1|].
    - cbn [is_none bind when]. apply C; [|left; exists [], t1, c1; auto]. apply EX_one1, one1_sem in H1. right. exact H1.
    - subst t1. rewrite app_nil_r. cbn [is_none]. apply L_assoc. apply L_look. cbn [bind].
      eapply L_kapp; [apply kx_missing|]. intros a3 r3 t3 G3 [H3 _]. apply C; [|now right]. rewrite H3. now left.
  Qed.

  Lemma lx_rhs bp r t c : lhs_ok bp TWIG_EXPRESSION c r t ->
    L r [] t (parse_twig_expression_binding_power_rhs bp c) (fun c' r' t' => EX bp c' r' t').
  Proof.
    intros H. unfold parse_twig_expression_binding_power_rhs. eapply L_bind; [apply lx_binary, H|]. cbv beta. clear r t c H.
    intros [c isb] r t H. cbn [fst snd] in H.
    assert (F : forall r t c, lhs_end bp TWIG_EXPRESSION c r t ->
      L r [] t (if Nat.eqb bp 0 then c0 <- parse_conditional_expression c ;; match c0 with Some m => Ret m | None => Ret c end
                  else Ret c) (fun c' r' t' => EX bp c' r' t')).
    { clear H. clear r t c isb. intros r t c H. destruct (Nat.eqb_spec bp 0) as [->|Hbp].
      - eapply L_bind; [apply lx_conditional, H|]. cbv beta. intros [c1|] r1 t1 H1; now apply L_ret.
      - apply L_ret. destruct H as (cs & b & -> & Hb & Hl & Hs & He). exists cs, b. repeat split; auto.
        unfold finished. destruct (right_edge (Node TWIG_EXPRESSION cs)) as [os|] eqn:Er; [|exact I].
        cbn [stops] in Hs. destruct Hs as [H1 H2]. split; [exact H1|]. split; [|exact H2].
        destruct He as [He|He]; [discriminate|exact He|]. unfold below, next_power. destruct (drop_trivia r) as [|tok ts]; [exact I|].
        apply kind_eqb_eq in He. rewrite He. lia. }
    destruct isb; cbn [bind]; [|now apply F]. apply L_assoc. cbn [lhs_kind] in H.
    apply L_good. intros G. destruct H as (cs & b & -> & Hb & Hl & Hs & He). inversion G as [|? ? _ Gb]; subst. assert (Jb := unk_junks _ Gb Hb).
    assert (Hsem : sem (nd [TWIG_BINARY_EXPRESSION]) (cn (INode c (Node TWIG_BINARY_EXPRESSION cs) :: b))).
    { eapply (one1_sem _ c). exists TWIG_BINARY_EXPRESSION, cs, b. repeat split; auto; [now left|discriminate]. }
    apply L_precede0. intros m. eapply L_complete; [reflexivity|reflexivity| |intros _; exact I|].
    { rewrite (cn_locked c). eapply sem_nd_incl; [exact Hsem|reflexivity]. }
    intros _. rewrite app_nil_l. apply F. eexists _, []. split; [reflexivity|]. split; [constructor|].
    rewrite trees_cons, trees_lock. cbn [item_trees app]. rewrite wrapped_left, wrapped_right by (reflexivity || exact Jb). auto.
  Qed.

  (** an expression starts with its first operand *)
  Lemma lhs_start (A : Set) bp ks c r t (g : nat -> prog A) R :
    forallb (fun k => mem_kind k expressions && wrappable k && match k with TWIG_EXPRESSION | TWIG_BINARY_EXPRESSION | TWIG_CONDITIONAL_EXPRESSION => false | _ => true end) ks = true ->
    operand ks stops c r t ->
    (forall c' t', lhs_ok bp TWIG_EXPRESSION c' r t' -> L r [] t' (g c') R) ->
    L r [] t (m <- precede c ;; lhs <- complete m TWIG_EXPRESSION ;; g lhs) R.
  Proof.
    intros Hks Ho Hg. apply L_good. intros G. pose proof (one1_sem _ _ _ (operand_one1 _ _ _ _ _ Ho)) as Hsem.
    destruct Ho as (k & cs & b & -> & Hb & Hk & He & Hs). inversion G as [|? ? _ Gb]; subst. assert (Jb := unk_junks _ Gb Hb).
    rewrite forallb_forall in Hks.
    apply L_precede0. intros m. eapply L_complete; [reflexivity|reflexivity| |intros _; exact I|].
    { rewrite (cn_locked c). eapply sem_nd_incl; [exact Hsem|]. apply forallb_forall. intros k' Hk'. specialize (Hks k' Hk').
      apply andb_true_iff in Hks as [Hks _]. now apply andb_true_iff in Hks. }
    intros _. rewrite app_nil_l. apply Hg. specialize (Hks k Hk). apply andb_true_iff in Hks as [W0 W2]. apply andb_true_iff in W0 as [_ W1].
    eexists _, []. split; [reflexivity|]. split; [constructor|].
    rewrite trees_cons, trees_lock. cbn [item_trees app]. rewrite wrapped_left, wrapped_right by (exact W1 || exact Jb). split; [|exact Hs].
    rewrite left_edge_eq. destruct k; try discriminate W2; constructor.
  Qed.

  Definition paren_result (a : bool) (t : list item) : Prop :=
    if a then sem (nd [TWIG_LITERAL_NAME]) (cn t) else sem (opt expr) (cn t).
  Lemma kx_paren_inner (b : bool) :
    K [] []
      (if b then
         on <- parse_twig_name ;;
         match on with
         | Some lit_m =>
           a <- (c <- at_ TK_COMMA ;; if c then Ret true else at_following [TK_CLOSE_PARENTHESIS; TK_EQUAL_GREATER_THAN]) ;;
           if a : bool then Ret true else
           lit_m <- (If at_ TK_OPEN_PARENTHESIS Then parse_twig_function lit_m Else Ret lit_m) ;;
           lit_m <- parse_postfix_operators lit_m ;;
           expr_m <- precede lit_m ;;
           lhs <- complete expr_m TWIG_EXPRESSION ;;
           parse_twig_expression_binding_power_rhs 0 lhs ;;
           Ret false
         | None => parse_twig_expression_binding_power 0 ;; Ret false
         end
       else parse_twig_expression_binding_power 0 ;; Ret false) paren_result.
  Proof.
    assert (E : K [] [] (parse_twig_expression_binding_power 0 ;; Ret false) paren_result).
    { kcall kx_expr. apply K_ret. cbn [app paren_result]. eapply may1_sem; eassumption. }
    destruct b; [|exact E]. apply K_L. intros r. eapply L_kapp; [apply kx_name|]. intros a r1 t1 G1 H1. cbn [app].
    destruct a as [c|]; cbn [may1] in H1; [|subst t1; now apply L_K].
    assert (Z : forall r1, L r1 [] t1
      (lit_m <- (If at_ TK_OPEN_PARENTHESIS Then parse_twig_function c Else Ret c) ;;
       lit_m <- parse_postfix_operators lit_m ;;
       expr_m <- precede lit_m ;;
       lhs <- complete expr_m TWIG_EXPRESSION ;;
       parse_twig_expression_binding_power_rhs 0 lhs ;;
       Ret false) (fun a _ t' => paren_result a t')).
    { intros r2. eapply L_bind with (R1 := operand operands ended).
      - apply L_look. destruct (l_at TK_OPEN_PARENTHESIS (drop_trivia r2)) eqn:At.
        + apply lx_function; [eapply one1_sub; [exact H1|reflexivity]|now rewrite drop_idem].
        + apply L_ret. now apply (plain_operand TWIG_LITERAL_NAME).
      - intros c2 r3 t3 H3. eapply L_bind; [apply lx_postfix, H3|]. intros c4 r4 t4 H4.
        eapply (lhs_start _ 0 operands); [reflexivity|exact H4|]. intros c5 t5 H5.
        eapply L_bind; [apply lx_rhs, H5|]. intros c6 r6 t6 H6. cbv beta in H6. apply L_ret. right. eapply one1_sem, EX_one1, H6. }
    apply L_assoc. apply L_look. destruct (l_at TK_COMMA _); cbn [bind].
    - apply L_ret. cbn [paren_result]. eapply one1_sem; eassumption.
    - apply L_look. destruct (l_following _ _); [|apply Z]. apply L_ret. cbn [paren_result]. eapply one1_sem; eassumption.
  Qed.

  Ltac ln := cbv beta iota; repeat lazymatch goal with |- L _ _ _ (bind (bind _ _) _) _ => apply L_assoc; cbv beta iota end.
  Lemma lx_lhs r : L r [] [] parse_twig_expression_lhs (mayL (TWIG_UNARY_EXPRESSION :: operands) stops).
  Proof.
    assert (S : forall c r t, operand operands stops c r t -> operand (TWIG_UNARY_EXPRESSION :: operands) stops c r t).
    { intros c r1 t (k & cs & b & -> & Hb & Hk & He & HP). exists k, cs, b. repeat split; auto. now right. }
    unfold parse_twig_expression_lhs. apply L_look. destruct (l_at TK_OPEN_PARENTHESIS _).
    - unfold parse_paren_expression. ln. apply L_dassert. intros r1 _. ln. apply L_start. intros m.
      ln. apply L_bump. intros tok ts tr E Gt. cbn [app]. ln. apply L_look.
      ln. eapply L_kapp; [apply kx_paren_inner|]. cbv beta. intros [] r2 t2 G2 H2; cbn [paren_result] in H2.
      + cbn [bind]. unfold parse_paren_arrow_function. ln. apply L_dassert. intros r3 _. ln. eapply L_kapp.
        { apply (K_list dbg T N _ _ name); [ksteps; kfin|]. kcall kx_name. apply may1_sem in H0. kfin. }
        cbv beta. intros _ r4 t4 G4 H4. ln. eapply L_kapp; [apply kx_expect|]. intros a5 r5 t5 G5 H5. unfold no_part in H5.
        ln. eapply L_complete; [reflexivity|reflexivity| |intros _; exact I|].
        { right. repeat rewrite <- app_assoc. rewrite !cn_app, H5, app_nil_r. cbn [cn flat_map item_part app]. apply sem_many_app; [|exact H4].
          apply sem_many_one. exact H2. }
        intros _. rewrite app_nil_l. eapply L_bind; [apply lx_arrow; apply one1_self; reflexivity|].
        intros a6 r6 t6 H6. apply L_ret. cbn [mayL]. now apply S.
      + ln. eapply L_kapp; [apply kx_expect|]. intros a5 r5 t5 G5 H5. unfold no_part in H5. cbn [bind].
        eapply L_complete; [reflexivity|reflexivity| |intros _; exact I|].
        { rewrite !cn_app, H5, app_nil_r. exact H2. }
        intros _. rewrite app_nil_l. eapply L_bind; [apply lx_postfix; apply (plain_operand TWIG_PARENTHESES_EXPRESSION); [reflexivity|apply one1_self; reflexivity]|].
        intros a6 r6 t6 H6. apply L_ret. cbn [mayL]. now apply S.
    - apply L_look. destruct (l_at_set _ _).
      + eapply L_bind; [apply lx_unary|]. intros a1 r1 t1 (k & cs & b & -> & Hb & [<-|[]] & He & HP). apply L_ret. cbn [mayL].
        exists TWIG_UNARY_EXPRESSION, cs, b. repeat split; auto. now left.
      + eapply L_bind; [apply lx_literal|]. intros [c1|] r1 t1 H1; cbn [mayL] in H1; [|now apply L_ret].
        eapply L_bind; [apply lx_postfix, H1|]. intros a6 r6 t6 H6. apply L_ret. cbn [mayL]. now apply S.
  Qed.
  Lemma lx_body_expression bp r : L r [] [] (body_expression bp) (Rs (CExpr bp)).
  Proof.
    unfold body_expression. eapply L_bind; [apply lx_lhs|]. intros [c1|] r1 t1 H1; cbn [mayL] in H1; [|now apply L_ret].
    eapply (lhs_start _ bp (TWIG_UNARY_EXPRESSION :: operands)); [reflexivity|exact H1|]. intros c2 t2 H2.
    eapply L_bind; [apply lx_rhs, H2|]. intros c6 r6 t6 H6. now apply L_ret.
  Qed.
End Expr.
