(** Reasoning about the trees that are built: a partial-correctness calculus on the tree machine
    in which every finished node satisfies a given condition.  Used for the shape of the trees
    of error-free parses ([strict = true]: reporting an error aborts) and of all parses. *)
From Coq Require Import NArith String Bool Arith Lia List Permutation.
Import ListNotations.
From Verif Require Import Text Kind Regex Lexer LexerProofs ParserApi GrammarExpr GrammarTags GrammarHtml
  Machine TreeMachine Simulation TreeSpec WpBase Total.
Local Notation length := List.length (only parsing).
Local Open Scope list_scope.
Local Open Scope prog_scope.

Definition trivia_token (t : token) : Prop := is_trivia (tk_kind t) = true.
Lemma take_trivia_trivia : forall l, Forall trivia_token (take_trivia l).
Proof.
  induction l as [|t l IH]; [constructor|]. cbn [take_trivia].
  destruct (is_trivia (tk_kind t)) eqn:E; [|constructor]. constructor; [exact E|exact IH].
Qed.

(** [shape] holds for every node of a tree. *)
Inductive every (shape : kind -> list tree -> Prop) : tree -> Prop :=
| every_leaf k s : every shape (Leaf k s)
| every_node k cs : shape k cs -> Forall (every shape) cs -> every shape (Node k cs).

Lemma every_subtree shape t k cs : every shape t -> subtree (Node k cs) t -> shape k cs.
Proof.
  intros H S. revert H. induction S as [|k' cs' c Hc S IH]; intros H.
  - now inversion H.
  - apply IH. inversion H as [|? ? _ F]; subst. rewrite Forall_forall in F. auto.
Qed.

(** * Markers are distinct *)
Lemma NoDup_app_remove_l (A : Type) (a b : list A) : NoDup (a ++ b) -> NoDup b.
Proof. induction a as [|x a IH]; [auto|]. intros H. inversion H; auto. Qed.
Lemma NoDup_app_remove_r (A : Type) (a b : list A) : NoDup (a ++ b) -> NoDup a.
Proof.
  induction a as [|x a IH]; [constructor|]. intros H. inversion H; subst. constructor; [|auto].
  intros X. apply H2. apply in_app_iff. auto.
Qed.
Fixpoint marks (st : list (nat * list item)) : list nat :=
  match st with [] => [] | (m, saved) :: st' => m :: ids saved ++ marks st' end.

Lemma ids_cons i l : ids (i :: l) = ids [i] ++ ids l.
Proof. unfold ids. cbn [flat_map]. now rewrite app_nil_r. Qed.

Lemma ids_lock : forall l, ids (map lock l) = [].
Proof. induction l as [|[| | |] l IH]; [reflexivity| | | |]; exact IH. Qed.

Lemma split_node_unique c nd : forall o rc, NoDup (ids (o ++ INode c nd :: rc)) ->
  split_node c (o ++ INode c nd :: rc) = Some (o, nd, rc).
Proof.
  assert (N : forall l, ~ In c (ids l) -> split_node c l = None).
  { induction l as [|i l IH]; [reflexivity|]. intros H. rewrite ids_cons, in_app_iff in H. cbn [split_node].
    rewrite IH by tauto. destruct i as [| |m t|]; try reflexivity.
    destruct (Nat.eqb_spec m c) as [->|]; [|reflexivity]. exfalso. apply H. left. now left. }
  induction o as [|i o IH]; intros rc H.
  - cbn [app split_node]. cbn [app] in H. rewrite ids_cons in H. cbn [ids flat_map app] in H. inversion H; subst.
    rewrite N by assumption. now rewrite Nat.eqb_refl.
  - cbn [app split_node]. rewrite IH; [reflexivity|]. cbn [app] in H. rewrite ids_cons in H.
    apply NoDup_app_remove_l in H. exact H.
Qed.

Lemma NoDup_sub (l l' : list nat) : NoDup l -> (exists r, Permutation l (l' ++ r)) -> NoDup l'.
Proof. intros H (r & P). eapply Permutation_NoDup in H; [|exact P]. now apply NoDup_app_remove_r in H. Qed.

Section Shape.
  Context (strict dbg : bool) (T : list token) (shape : kind -> list tree -> Prop).

  Definition gooditem (i : item) : Prop :=
    match i with
    | ITok tr _ _ | ITriv tr => Forall trivia_token tr
    | INode _ t | ILock t => (exists k cs, t = Node k cs) /\ every shape t
    end.
  Definition goodstack (st : list (nat * list item)) : Prop := Forall (fun f => Forall gooditem (snd f)) st.

  Lemma good_lock i : gooditem i -> gooditem (lock i).
  Proof. now destruct i. Qed.
  Lemma good_trees its : Forall gooditem its -> Forall (every shape) (trees its).
  Proof.
    induction 1 as [|i its H _ IH]; [constructor|]. unfold trees. cbn [flat_map]. apply Forall_app. split; [|exact IH].
    assert (L : forall l, Forall (every shape) (map leaf l))
      by (intros l; apply Forall_forall; intros x Hx; apply in_map_iff in Hx as (y & <- & _); constructor).
    destruct i; cbn [item_trees gooditem] in *.
    - apply Forall_app. split; [apply L|]. repeat constructor.
    - apply L.
    - constructor; [apply H|constructor].
    - constructor; [apply H|constructor].
  Qed.

  (** The hidden invariant: parser and sink see the same next token, markers are distinct. *)
  Record inv (s : tstate) : Prop := mkInv {
    inv_sync : drop_trivia (t_snk s) = drop_trivia (t_rest s);
    inv_nodup : NoDup (ids (t_items s) ++ marks (t_stack s));
    inv_fresh : Forall (fun m => m < t_nev s) (ids (t_items s) ++ marks (t_stack s));
    inv_len : length (t_rest s) <= length T }.
  Lemma len_drop r n : length r <= n -> length (drop_trivia r) <= n.
  Proof. pose proof (drop_length r). lia. Qed.
  Lemma len_next r tok ts n : drop_trivia r = tok :: ts -> length r <= n -> length ts <= n.
  Proof. intros E H. pose proof (drop_length r) as D. rewrite E in D. cbn [List.length] in D. lia. Qed.
  Lemma len_skip r c n : length r <= n -> length (skipn c (drop_trivia r)) <= n.
  Proof. rewrite skipn_length. pose proof (drop_length r). lia. Qed.
  Hint Resolve len_drop len_next len_skip : core.

  Notation wp := (WpBase.wp (tstep strict dbg T) inv (fun _ => True) True).
  Notation wpo := (WpBase.wpo (tstep strict dbg T) inv (fun _ => True) True).

  (** * The judgement

      [segs]: nodes opened since the beginning of the function, innermost first, with the
      items saved for their parents; [t]: items of the innermost one. *)
  Definition cur (segs : list (nat * list item)) (its t : list item) : list item :=
    match segs with [] => its ++ t | _ => t end.
  Fixpoint stk (segs : list (nat * list item)) (its : list item) (st : list (nat * list item))
    : list (nat * list item) :=
    match segs with
    | [] => st
    | (m, saved) :: segs' => (m, cur segs' its saved) :: stk segs' its st
    end.
  Definition res_spec (A : Set) := A -> list token -> list item -> Prop.
  Definition J {A : Set} (n : nat) (r : list token) (segs : list (nat * list item)) (t : list item)
    (p : prog A) (R : res_spec A) : Prop :=
    Forall gooditem t -> goodstack segs -> forall its st,
      wp n p r (cur segs its t) (stk segs its st)
        (fun a r' its' st' => exists t', st' = st /\ its' = its ++ t' /\ Forall gooditem t' /\ R a r' t').

  Lemma J_mono (A : Set) n r segs t (p : prog A) (R R' : res_spec A) :
    J n r segs t p R -> (forall a r t, Forall gooditem t -> R a r t -> R' a r t) -> J n r segs t p R'.
  Proof.
    intros H HR Ht Hs its st. eapply wp_mono; [exact (H Ht Hs its st)|].
    cbn. intros a r' i s (t' & -> & -> & G & Ha). exists t'. auto.
  Qed.

  Lemma J_ret (A : Set) n r t (a : A) (R : res_spec A) : R a r t -> J n r [] t (Ret a) R.
  Proof. intros H Ht Hs its st. apply wp_ret. exists t. auto. Qed.

  Lemma J_good (A : Set) n r segs t (p : prog A) (R : res_spec A) :
    (Forall gooditem t -> J n r segs t p R) -> J n r segs t p R.
  Proof. intros H Ht. now apply H. Qed.

  Lemma J_bind (A B : Set) n r segs t (p : prog A) (g : A -> prog B) (R1 : res_spec A) (R : res_spec B) :
    J n r [] t p R1 ->
    (forall a r1 t1, Forall gooditem t1 -> R1 a r1 t1 -> J n r1 segs t1 (g a) R) ->
    J n r segs t (bind p g) R.
  Proof.
    intros H Hg Ht Hs its st. apply wp_bind.
    pose (base := match segs with [] => its | _ => [] end).
    assert (E : forall x, cur segs its x = base ++ x) by (intros x; destruct segs; reflexivity).
    rewrite E. eapply wp_mono; [exact (H Ht (Forall_nil _) base (stk segs its st))|]. cbn.
    intros a r' i s (t' & -> & -> & G & Ha). rewrite <- E. now apply Hg.
  Qed.

  (** A function that only adds items. *)
  Lemma J_frame (A : Set) n r t (p : prog A) (R : res_spec A) :
    J n r [] [] p R -> J n r [] t p (fun a r' t' => exists t1, t' = t ++ t1 /\ R a r' t1).
  Proof.
    intros H Ht Hs its st. cbn [cur stk].
    specialize (H (Forall_nil _) (Forall_nil _) (its ++ t) st). cbn [cur stk] in H. rewrite app_nil_r in H.
    eapply wp_mono; [exact H|]. cbn. intros a r' i s (t' & -> & -> & G & Ha).
    exists (t ++ t'). rewrite app_assoc. repeat split; auto; [|eauto]. apply Forall_app. auto.
  Qed.
  Lemma J_app (A B : Set) n r segs t (p : prog A) (g : A -> prog B) (R1 : res_spec A) (R : res_spec B) :
    J n r [] [] p R1 ->
    (forall a r1 t1, Forall gooditem t1 -> R1 a r1 t1 -> J n r1 segs (t ++ t1) (g a) R) ->
    J n r segs t (bind p g) R.
  Proof.
    intros H Hg. apply J_good. intros Gt. eapply J_bind; [apply J_frame, H|].
    cbn. intros a r1 t' G (t1 & -> & Ha). apply Forall_app in G as [_ G]. auto.
  Qed.

  (** Programs in tail position. *)
  Lemma J_tail (A : Set) n r segs t (p : prog A) (R : res_spec A) :
    J n r segs t (bind p (fun a => Ret a)) R -> J n r segs t p R.
  Proof.
    intros H Ht Hs its st s Hi Hr Hits Hst. specialize (H Ht Hs its st s Hi Hr Hits Hst).
    rewrite run_bind in H. destruct (run (tstep strict dbg T) n p s) as [[a s']|q|]; cbn [rbind fst snd] in *; auto.
    now rewrite run_Ret in H.
  Qed.
  Lemma J_assoc (A B C : Set) n r segs t (p : prog A) (g : A -> prog B) (h : B -> prog C) (R : res_spec C) :
    J n r segs t (bind p (fun a => bind (g a) h)) R -> J n r segs t (bind (bind p g) h) R.
  Proof.
    intros H Ht Hs its st s Hi Hr Hits Hst. specialize (H Ht Hs its st s Hi Hr Hits Hst).
    rewrite run_bind in *. rewrite run_bind. destruct (run (tstep strict dbg T) n p s) as [[a s']|q|]; cbn in *; auto.
    now rewrite run_bind in H.
  Qed.

  (** * Primitives *)
  Lemma J_prim (A B : Set) n r segs t (o : op B) (g : B -> prog A) (R : res_spec A) :
    (Forall gooditem t -> goodstack segs -> forall its st,
       wpo o r (cur segs its t) (stk segs its st)
         (fun b r' its' st' => exists segs' t', its' = cur segs' its t' /\ st' = stk segs' its st /\
            Forall gooditem t' /\ goodstack segs' /\ J n r' segs' t' (g b) R)) ->
    J n r segs t (bind (prim o) g) R.
  Proof.
    intros H Ht Hs its st. apply wp_bind. apply wp_prim. intros s Hi Hr Hits Hst.
    eapply holds_mono; [|exact (H Ht Hs its st s Hi Hr Hits Hst)]. cbn.
    intros b r' i st' (segs' & t' & -> & -> & G & Gs & Hj). now apply Hj.
  Qed.

  Lemma J_look (A B : Set) n r segs t (f : list token -> A) (g : A -> prog B) (R : res_spec B) :
    J n (drop_trivia r) segs t (g (f (drop_trivia r))) R -> J n r segs t (bind (look f) g) R.
  Proof.
    intros H Ht Hs its st. apply wp_bind. apply wp_op. intros s Hi Hr Hits Hst. cbn [tstep holds].
    rewrite Hr. split.
    - destruct Hi as [H1 H2 H3 H4]. constructor; cbn [t_rest t_snk t_items t_stack t_nev]; auto.
      + rewrite drop_idem, <- Hr. exact H1.
      + rewrite <- Hr. auto.
    - cbn [t_rest t_items t_stack]. rewrite Hits, Hst. apply wp_ret. now apply H.
  Qed.

  Lemma J_get_pos (A : Set) n r segs t (g : nat -> prog A) (R : res_spec A) :
    (forall k, J n r segs t (g k) R) -> J n r segs t (bind get_pos g) R.
  Proof.
    intros H. apply J_prim. intros Ht Hs its st s Hi <- Hits Hst. cbn [tstep holds]. split; [exact Hi|].
    exists segs, t. repeat split; auto.
  Qed.

  Lemma J_get_pos_exact (A : Set) n r segs t (g : nat -> prog A) (R : res_spec A) :
    (length r <= length T -> J n r segs t (g (length T - length r)) R) -> J n r segs t (bind get_pos g) R.
  Proof.
    intros H. apply J_prim. intros Ht Hs its st s Hi <- Hits Hst. cbn [tstep holds]. split; [exact Hi|].
    exists segs, t. destruct Hi. repeat split; auto.
  Qed.

  Lemma cur_app segs its t x : cur segs its t ++ x = cur segs its (t ++ x).
  Proof. destruct segs; cbn [cur]; [now rewrite app_assoc|reflexivity]. Qed.

  Lemma ids_tok tr k us : ids [ITok tr k us] = [].
  Proof. reflexivity. Qed.

  Lemma J_bump_site (A : Set) n r segs t site (g : token -> prog A) (R : res_spec A) :
    (forall tok ts tr, drop_trivia r = tok :: ts ->
       J n ts segs (t ++ [ITok tr (tk_kind tok) [tok]]) (g tok) R) ->
    J n r segs t (bind (bump_site site) g) R.
  Proof.
    intros H. apply J_prim. intros Ht Hs its st s [H1 H2 H3 H4] Hr Hits Hst. cbn [tstep].
    rewrite Hr in *. destruct (drop_trivia r) as [|tok ts] eqn:E; [exact I|]. rewrite H1. cbn [holds]. split.
    - constructor; cbn [t_rest t_snk t_items t_stack t_nev]; eauto; rewrite ids_app, ids_tok, app_nil_r; [exact H2|].
      eapply Forall_impl; [|exact H3]. cbn. lia.
    - cbn [t_rest t_items t_stack]. exists segs, (t ++ [ITok (take_trivia (t_snk s)) (tk_kind tok) [tok]]).
      rewrite Hits, cur_app. repeat split; auto.
      + apply Forall_app. split; [exact Ht|]. constructor; [apply take_trivia_trivia|constructor].
      + destruct tok. now apply H.
  Qed.
  Lemma J_bump (A : Set) n r segs t (g : token -> prog A) (R : res_spec A) :
    (forall tok ts tr, drop_trivia r = tok :: ts ->
       J n ts segs (t ++ [ITok tr (tk_kind tok) [tok]]) (g tok) R) ->
    J n r segs t (bind bump g) R.
  Proof. apply J_bump_site. Qed.

  Lemma J_bump_as (A : Set) n r segs t k (g : token -> prog A) (R : res_spec A) :
    (forall tok ts tr, drop_trivia r = tok :: ts ->
       J n ts segs (t ++ [ITok tr k [tok]]) (g (mkTok k (tk_text tok) (tk_start tok) (tk_end tok))) R) ->
    J n r segs t (bind (bump_as k) g) R.
  Proof.
    intros H. apply J_prim. intros Ht Hs its st s [H1 H2 H3 H4] Hr Hits Hst. cbn [tstep].
    rewrite Hr in *. destruct (drop_trivia r) as [|tok ts] eqn:E; [exact I|]. rewrite H1. cbn [holds]. split.
    - constructor; cbn [t_rest t_snk t_items t_stack t_nev]; eauto; rewrite ids_app, ids_tok, app_nil_r; [exact H2|].
      eapply Forall_impl; [|exact H3]. cbn. lia.
    - cbn [t_rest t_items t_stack]. exists segs, (t ++ [ITok (take_trivia (t_snk s)) k [tok]]).
      rewrite Hits, cur_app. repeat split; auto.
      apply Forall_app. split; [exact Ht|]. constructor; [apply take_trivia_trivia|constructor].
  Qed.

  Lemma J_bump_n (A : Set) n r segs t c k (g : list token -> prog A) (R : res_spec A) :
    (forall tr, length (firstn c (drop_trivia r)) = c ->
       J n (skipn c (drop_trivia r)) segs (t ++ [ITok tr k (firstn c (drop_trivia r))])
         (g (firstn c (drop_trivia r))) R) ->
    J n r segs t (bind (bump_next_n_as c k) g) R.
  Proof.
    intros H. apply J_prim. intros Ht Hs its st s [H1 H2 H3 H4] Hr Hits Hst. cbn [tstep].
    rewrite Hr in *. destruct (Nat.eqb_spec (length (firstn c (drop_trivia r))) c) as [E|E]; [|exact I].
    rewrite H1. destruct (Nat.leb c (length (drop_trivia r))); [|exact I]. cbn [holds]. split.
    - constructor; cbn [t_rest t_snk t_items t_stack t_nev]; eauto; rewrite ids_app, ids_tok, app_nil_r; [exact H2|].
      eapply Forall_impl; [|exact H3]. cbn. lia.
    - cbn [t_rest t_items t_stack]. eexists segs, (t ++ [ITok (take_trivia (t_snk s)) k _]).
      rewrite Hits, cur_app. repeat split; auto.
      apply Forall_app. split; [exact Ht|]. constructor; [apply take_trivia_trivia|constructor].
  Qed.

  Lemma J_trivia (A : Set) n r segs t (g : unit -> prog A) (R : res_spec A) :
    (forall tr, J n r segs (t ++ [ITriv tr]) (g tt) R) ->
    J n r segs t (bind explicitly_consume_trivia g) R.
  Proof.
    intros H. apply J_prim. intros Ht Hs its st s [H1 H2 H3 H4] Hr Hits Hst. cbn [tstep holds]. rewrite Hr in *. split.
    - constructor; cbn [t_rest t_snk t_items t_stack t_nev]; auto.
      + now rewrite drop_idem.
      + rewrite ids_app. cbn [ids flat_map]. now rewrite app_nil_r.
      + rewrite ids_app. cbn [ids flat_map]. rewrite app_nil_r. eapply Forall_impl; [|exact H3]. cbn. lia.
    - cbn [t_rest t_items t_stack]. exists segs, (t ++ [ITriv (take_trivia (t_snk s))]). rewrite Hits, cur_app.
      repeat split; auto. apply Forall_app. split; [exact Ht|]. constructor; [apply take_trivia_trivia|constructor].
  Qed.

  Lemma J_add_error_t (A : Set) n r segs t e (g : unit -> prog A) (R : res_spec A) :
    (strict = false -> J n (drop_trivia r) segs t (g tt) R) -> J n r segs t (bind (add_error_t e) g) R.
  Proof.
    intros H. apply J_prim. intros Ht Hs its st s [H1 H2 H3 H4] Hr Hits Hst. cbn [tstep].
    destruct strict; [exact I|]. rewrite Hr in *. destruct (error_here T (drop_trivia r) e) as [err|q|]; cbn [rbind holds]; [|exact I|exact I].
    split.
    - constructor; cbn [t_rest t_snk t_items t_stack t_nev]; auto. now rewrite drop_idem.
    - cbn [t_rest t_items t_stack]. exists segs, t. repeat split; auto.
  Qed.
  Lemma J_add_error (A : Set) n r segs t e (g : unit -> prog A) (R : res_spec A) :
    (strict = false -> J n (drop_trivia r) segs t (g tt) R) -> J n r segs t (bind (add_error e) g) R.
  Proof. apply J_add_error_t. Qed.
  Lemma J_add_error_at (A : Set) n r segs t e tok (g : unit -> prog A) (R : res_spec A) :
    (strict = false -> J n r segs t (g tt) R) -> J n r segs t (bind (add_error_at e tok) g) R.
  Proof.
    intros H. apply J_prim. intros Ht Hs its st s [H1 H2 H3 H4] Hr Hits Hst. cbn [tstep].
    destruct strict; [exact I|]. cbn [holds]. split.
    - constructor; cbn [t_rest t_snk t_items t_stack t_nev]; auto.
    - cbn [t_rest t_items t_stack]. exists segs, t. rewrite Hr. repeat split; auto.
  Qed.

  Lemma J_fail (A B : Set) n r segs t q (g : A -> prog B) (R : res_spec B) : J n r segs t (bind (fail q) g) R.
  Proof.
    intros Ht Hs its st. apply wp_bind. apply wp_op. intros s Hi Hr Hits Hst. exact I.
  Qed.

  Lemma J_dassert_site (A : Set) n r segs t site f (g : unit -> prog A) (R : res_spec A) :
    (forall r', (dbg = false /\ r' = r) \/ (dbg = true /\ r' = drop_trivia r /\ f r' = true) ->
       J n r' segs t (g tt) R) ->
    J n r segs t (bind (debug_assert_site site f) g) R.
  Proof.
    intros H. apply J_prim. intros Ht Hs its st s Hi Hr Hits Hst. cbn [tstep]. destruct dbg.
    - destruct (f (drop_trivia (t_rest s))) eqn:Ef; [|exact I]. cbn [holds]. destruct Hi as [H1 H2 H3 H4]. split.
      + constructor; cbn [t_rest t_snk t_items t_stack t_nev]; auto. now rewrite drop_idem.
      + cbn [t_rest t_items t_stack]. exists segs, t. rewrite Hr in *. repeat split; auto.
    - cbn [holds]. split; [exact Hi|]. exists segs, t. rewrite Hr. repeat split; auto.
  Qed.
  Lemma J_dassert (A : Set) n r segs t f (g : unit -> prog A) (R : res_spec A) :
    (forall r', r' = r \/ r' = drop_trivia r -> J n r' segs t (g tt) R) ->
    J n r segs t (bind (debug_assert f) g) R.
  Proof. intros H. apply J_dassert_site. intros r' [[_ ->]|(_ & -> & _)]; auto. Qed.

  Lemma J_start (A : Set) n r segs t (g : nat -> prog A) (R : res_spec A) :
    (forall m, J n r ((m, t) :: segs) [] (g m) R) -> J n r segs t (bind start g) R.
  Proof.
    intros H. apply J_prim. intros Ht Hs its st s [H1 H2 H3 H4] Hr Hits Hst. cbn [tstep holds]. split.
    - constructor; cbn [t_rest t_snk t_items t_stack t_nev marks ids flat_map app]; auto.
      + constructor; [|exact H2]. rewrite Forall_forall in H3. intros X. specialize (H3 _ X). cbn in H3. lia.
      + constructor; [lia|]. eapply Forall_impl; [|exact H3]. cbn. lia.
    - cbn [t_rest t_items t_stack]. exists ((t_nev s, t) :: segs), []. cbn [cur stk]. rewrite Hits, Hst, Hr.
      repeat split; auto. constructor; [exact Ht|exact Hs].
  Qed.

  Lemma J_complete (A : Set) n r segs m saved t k (g : nat -> prog A) (R : res_spec A) :
    (Forall gooditem t -> shape k (trees t)) ->
    J n r segs (saved ++ [INode m (Node k (trees t))]) (g m) R ->
    J n r ((m, saved) :: segs) t (bind (complete m k) g) R.
  Proof.
    intros Hsh H. apply J_prim. intros Ht Hs its st s [H1 H2 H3 H4] Hr Hits Hst. cbn [tstep]. cbn [cur stk] in Hits, Hst.
    rewrite Hst, Nat.eqb_refl. cbn [holds]. rewrite Hst, Hits in *. cbn [marks] in *.
    assert (P : forall k, Permutation (ids t ++ m :: ids (cur segs its saved) ++ marks (stk segs its st))
      ((ids (cur segs its saved ++ [INode m (Node k (trees t))]) ++ marks (stk segs its st)) ++ ids t)).
    { intros k'. rewrite ids_app. cbn [ids flat_map app]. rewrite app_nil_r || idtac.
      rewrite (Permutation_app_comm (ids t)). apply Permutation_app_tail. rewrite <- app_assoc. cbn [app].
      apply Permutation_middle. }
    split.
    - constructor; cbn [t_rest t_snk t_items t_stack t_nev]; auto.
      + eapply NoDup_sub; [exact H2|]. eexists. apply P.
      + rewrite (P k) in H3. apply Forall_app in H3 as [H3 _]. eapply Forall_impl; [|exact H3]. cbn. lia.
    - cbn [t_rest t_items t_stack]. exists segs, (saved ++ [INode m (Node k (trees t))]). rewrite cur_app, Hr.
      inversion Hs as [|? ? Hs1 Hs2]; subst. cbn [snd] in Hs1. repeat split; auto.
      apply Forall_app. split; [exact Hs1|]. constructor; [|constructor]. split; [eauto|].
      constructor; [auto|]. now apply good_trees.
  Qed.

  Lemma J_precede (A : Set) n r segs o c nd rc (g : nat -> prog A) (R : res_spec A) :
    (forall m, J n r ((m, o) :: segs) (ILock nd :: map lock rc) (g m) R) ->
    J n r segs (o ++ INode c nd :: rc) (bind (precede c) g) R.
  Proof.
    intros H. apply J_prim. intros Ht Hs its st s [H1 H2 H3 H4] Hr Hits Hst. cbn [tstep].
    rewrite Hits in *. rewrite <- cur_app in *.
    rewrite split_node_unique by (apply NoDup_app_remove_r in H2; exact H2). cbn [holds].
    rewrite ids_app, ids_cons in H2, H3. cbn [ids flat_map app] in H2, H3.
    assert (P : Permutation ((flat_map (fun i => match i with INode m _ => [m] | _ => [] end) (cur segs its o)
                              ++ c :: flat_map (fun i => match i with INode m _ => [m] | _ => [] end) rc) ++ marks (t_stack s))
                            ((ids (cur segs its o) ++ marks (t_stack s)) ++ c :: ids rc)).
    { unfold ids. rewrite <- !app_assoc. apply Permutation_app_head. apply Permutation_app_comm. }
    split.
    - constructor; cbn [t_rest t_snk t_items t_stack t_nev]; auto.
      + rewrite ids_cons, ids_lock. cbn [ids flat_map app marks]. constructor.
        * intros X. rewrite P in H3. apply Forall_app in H3 as [H3 _]. rewrite Forall_forall in H3.
          specialize (H3 _ X). cbn in H3. lia.
        * eapply NoDup_sub; [exact H2|]. eexists. exact P.
      + rewrite ids_cons, ids_lock. cbn [ids flat_map app marks]. constructor; [lia|]. rewrite P in H3.
        apply Forall_app in H3 as [H3 _]. eapply Forall_impl; [|exact H3]. cbn. lia.
    - cbn [t_rest t_items t_stack]. exists ((t_nev s, o) :: segs), (ILock nd :: map lock rc). cbn [cur stk].
      rewrite Hst, Hr. apply Forall_app in Ht as [Ho Hc]. inversion Hc as [|? ? Hn Hrc]; subst. repeat split; auto.
      + constructor; [exact Hn|]. apply Forall_forall. intros x Hx. apply in_map_iff in Hx as (y & <- & Hy).
        apply good_lock. rewrite Forall_forall in Hrc. auto.
      + constructor; [exact Ho|exact Hs].
  Qed.

  (** * Input is only ever consumed *)
  Definition shrinks {A : Set} (s : tstate) (x : res (A * tstate)) : Prop :=
    match x with OK (_, s') => length (t_rest s') <= length (t_rest s) | _ => True end.
  Lemma shrinks_bind (A B : Set) s (x : res (A * tstate)) (f : A * tstate -> res (B * tstate)) :
    shrinks s x -> (forall a s', x = OK (a, s') -> shrinks s' (f (a, s'))) -> shrinks s (rbind x f).
  Proof.
    destruct x as [[a s']|q|]; cbn [rbind shrinks]; auto. intros H Hf. specialize (Hf a s' eq_refl).
    destruct (f (a, s')) as [[b s2]|q|]; cbn [shrinks] in *; auto. lia.
  Qed.
  Lemma shrinks_step (B : Set) (o : op B) s : shrinks s (tstep strict dbg T B o s).
  Proof.
    assert (D : length (drop_trivia (t_rest s)) <= length (t_rest s)) by apply drop_length.
    destruct o as [| |site as_|c k| |e tok| |m k|c|q|site f]; cbn [tstep].
    - exact D.
    - cbn. lia.
    - destruct (drop_trivia (t_rest s)) as [|x l]; [exact I|]. destruct (drop_trivia (t_snk s)); [exact I|]. cbn in *. lia.
    - destruct (Nat.eqb _ _); [|exact I]. destruct (Nat.leb _ _); [|exact I]. cbn [shrinks t_rest]. rewrite skipn_length. lia.
    - cbn. lia.
    - destruct tok as [tok|]; destruct strict; try exact I; [cbn; lia|].
      destruct (error_here T _ e); cbn [rbind shrinks t_rest]; auto.
    - cbn. lia.
    - destruct (t_stack s) as [|[m' saved] st]; [exact I|]. destruct (Nat.eqb _ _); [|exact I]. cbn. lia.
    - destruct (split_node _ _) as [[[o nd] rc]|]; [|exact I]. cbn. lia.
    - exact I.
    - destruct dbg; [|cbn; lia]. destruct (f _); [|exact I]. exact D.
  Qed.
  Lemma shrinks_run : forall n (A : Set) (p : prog A) s, shrinks s (run (tstep strict dbg T) n p s).
  Proof.
    induction n as [|n IHn]; intros A p; induction p as [A a|A B o k IH|A c k IH|A X B f IHf x k IH]; intros s.
    all: rewrite ?run_Ret, ?run_Op, ?run_Call, ?run_Iter.
    all: try (cbn; lia).
    all: repeat (apply shrinks_bind; [|intros a s1 _; cbn [fst snd]]); auto using shrinks_step; try exact I.
    all: destruct a; cbn [shrinks]; auto; try (cbn; lia).
  Qed.
  Lemma J_len (A : Set) n r segs t (p : prog A) (R : res_spec A) :
    J n r segs t p R -> J n r segs t p (fun a r' t' => R a r' t' /\ length r' <= length r).
  Proof.
    intros H Ht Hs its st s Hi Hr Hits Hst. specialize (H Ht Hs its st s Hi Hr Hits Hst).
    pose proof (shrinks_run n A p s) as L. destruct (run (tstep strict dbg T) n p s) as [[a s']|q|]; cbn [holds shrinks] in *; auto.
    rewrite Hr in L. destruct H as (Hi' & t' & H1 & H2 & H3 & H4). split; [exact Hi'|]. exists t'. auto.
  Qed.

  (** Programs that consume a token. *)
  Inductive eats {A : Set} : prog A -> Prop :=
  | eats_bump site as_ k : eats (Op (BumpAs site as_) k)
  | eats_op (B : Set) (o : op B) k : (forall b, eats (k b)) -> eats (Op o k).
  Lemma eats_bump_then (A : Set) site (g : token -> prog A) : eats (bind (bump_site site) g).
  Proof. apply eats_bump. Qed.
  Lemma eats_then (A B : Set) (o : op B) (g : B -> prog A) : (forall b, eats (g b)) -> eats (bind (prim o) g).
  Proof. intros H. now apply eats_op. Qed.
  Lemma eats_run n (A : Set) (p : prog A) : eats p -> forall s,
    match run (tstep strict dbg T) n p s with OK (_, s') => length (t_rest s') < length (t_rest s) | _ => True end.
  Proof.
    induction 1 as [site as_ k|B o k _ IH]; intros s; rewrite run_Op.
    - cbn [tstep]. pose proof (drop_length (t_rest s)) as D.
      destruct (drop_trivia (t_rest s)) as [|x l]; [exact I|]. destruct (drop_trivia (t_snk s)); [exact I|].
      cbn [rbind fst snd].
      match goal with |- match run _ _ ?p ?s with _ => _ end => pose proof (shrinks_run n A p s) as Z; destruct (run (tstep strict dbg T) n p s) as [[a s2]|q|] end; auto.
      cbn [shrinks t_rest] in Z. cbn [List.length] in D. lia.
    - pose proof (shrinks_step _ o s) as Z. destruct (tstep strict dbg T B o s) as [[b s1]|q|]; cbn [rbind fst snd]; auto.
      specialize (IH b s1). destruct (run (tstep strict dbg T) n (k b) s1) as [[a s2]|q|]; auto. cbn [shrinks] in Z. lia.
  Qed.
  Lemma J_eats (A : Set) n r segs t (p : prog A) (R : res_spec A) : eats p ->
    J n r segs t p R -> J n r segs t p (fun a r' t' => R a r' t' /\ length r' < length r).
  Proof.
    intros E H Ht Hs its st s Hi Hr Hits Hst. specialize (H Ht Hs its st s Hi Hr Hits Hst).
    pose proof (eats_run n A p E s) as L. destruct (run (tstep strict dbg T) n p s) as [[a s']|q|]; cbn [holds] in *; auto.
    rewrite Hr in L. destruct H as (Hi' & t' & H1 & H2 & H3 & H4). split; [exact Hi'|]. exists t'. auto.
  Qed.

  (** * Calls and loops *)
  Lemma J_call (A : Set) n r segs t c (g : option nat -> prog A) (R : res_spec A) (R1 : res_spec (option nat)) :
    (forall m, m < n -> J m r [] [] (body c) R1) ->
    (forall a r1 t1, Forall gooditem t1 -> R1 a r1 t1 -> J n r1 segs (t ++ t1) (g a) R) ->
    J n r segs t (bind (Call c (fun x => Ret x)) g) R.
  Proof.
    intros Hc Hg. eapply J_app; [|exact Hg]. intros Ht Hs its st. apply wp_call. destruct n as [|n']; [exact I|].
    eapply wp_mono; [apply (Hc n'); auto|]. cbn. intros a r' i s (t' & -> & -> & G & Ha). apply wp_ret. exists t'. auto.
  Qed.

  Lemma J_iter (X B : Set) n r t (f : X -> prog (X + B)) x (I : X -> list token -> list item -> Prop) (R : res_spec B) :
    I x r t ->
    (forall m x r t, m <= n -> Forall gooditem t -> I x r t ->
       J m r [] t (f x) (fun y r' t' => match y with inr b => R b r' t' | inl x' => I x' r' t' end)) ->
    J n r [] t (Iter f x (fun b => Ret b)) R.
  Proof.
    intros H0 Hf Ht Hs its st. cbn [cur stk].
    eapply wp_iter with
      (J := fun _ x r i s => exists t', s = st /\ i = its ++ t' /\ Forall gooditem t' /\ I x r t')
      (QB := fun b r i s => exists t', s = st /\ i = its ++ t' /\ Forall gooditem t' /\ R b r t').
    - eauto.
    - intros m x1 r1 i1 s1 Hm (t' & -> & -> & G & HI).
      eapply wp_mono; [exact (Hf m x1 r1 t' Hm G HI G (Forall_nil _) its st)|]. cbn.
      intros y r2 i2 s2 (t2 & -> & -> & G2 & HR). destruct y as [x'|b]; [|eauto].
      destruct m; [exact Logic.I|]. eauto 8.
    - intros b r1 i1 s1 H. now apply wp_ret.
  Qed.

  (** parse_many: [I] holds before every round; a round starts at a token that is not TK_UNKNOWN.  The
      loop ends at the end of the text, or when a round asks for it or makes no progress. *)
  Lemma J_many_end (X : Set) n r t early child (x : X) (I : X -> list token -> list item -> Prop) (R : res_spec X) :
    I x r t ->
    (forall x r t tok ts tr, I x r t -> drop_trivia r = tok :: ts -> tk_kind tok = TK_UNKNOWN ->
       I x ts (t ++ [ITok tr TK_UNKNOWN [tok]])) ->
    (forall x r t, I x r t -> drop_trivia r = [] -> R x [] t) ->
    (forall m x r t, m <= n -> Forall gooditem t -> I x r t -> drop_trivia r <> [] -> l_at TK_UNKNOWN (drop_trivia r) = false ->
       J m (drop_trivia r) [] t
         (bind (early x) (fun y => if fst y : bool then Ret (inr (snd y)) else bind (child (snd y)) (fun x2 => Ret (inl x2))))
         (fun y r' t' => match y with inr b => R b r' t' | inl x' => I x' r' t' /\ R x' r' t' end)) ->
    J n r [] t (parse_many_st early child x) R.
  Proof.
    intros H0 Hu HR Hf. unfold parse_many_st. apply J_iter with (I := I); [exact H0|].
    intros m x1 r1 t1 Hm G HI. apply J_get_pos. intros pos. apply J_look. destruct (l_at TK_UNKNOWN (drop_trivia r1)) eqn:E.
    - apply J_bump. intros tok ts tr Hd. rewrite drop_idem in Hd. rewrite Hd in E. cbn [l_at] in E.
      apply kind_eqb_eq in E. rewrite E. apply J_ret. eapply Hu; eauto.
    - apply J_look. rewrite drop_idem. destruct (l_at_end (drop_trivia r1)) eqn:E2.
      + assert (Hne : drop_trivia r1 = []) by (destruct (drop_trivia r1); [reflexivity|discriminate E2]).
        rewrite Hne. apply J_ret. eapply HR; eauto.
      + specialize (Hf m x1 r1 t1 Hm G HI). assert (Hne : drop_trivia r1 <> []) by (intros X0; rewrite X0 in E2; discriminate).
        specialize (Hf Hne E). revert Hf. generalize (drop_trivia r1). intros r2 Hf Ht Hs its st s Hi Hr Hits Hst.
        specialize (Hf Ht Hs its st s Hi Hr Hits Hst). rewrite run_bind in *.
        destruct (run (tstep strict dbg T) m (early x1) s) as [[[b x'] s']|q|]; cbn [rbind fst snd holds] in *; auto.
        destruct b; [rewrite run_Ret in Hf |- *; exact Hf|]. rewrite run_bind in *.
        destruct (run (tstep strict dbg T) m (child x') s') as [[x2 s2]|q|]; cbn [rbind fst snd holds] in *; auto.
        rewrite run_Ret in Hf. cbn [holds] in Hf. destruct Hf as [Hi2 (t' & Hs2 & Hi3 & G' & HI' & HR')].
        rewrite run_bind. unfold get_pos, prim. rewrite run_Op.
        cbn [tstep rbind fst snd]. rewrite run_Ret. cbn [rbind fst snd].
        destruct (Nat.eqb _ pos); rewrite run_Ret; cbn [holds]; split; auto; exists t'; repeat split; auto.
  Qed.
  Lemma J_many (X : Set) n r t early child (x : X) (I : X -> list token -> list item -> Prop) (R : res_spec X) :
    I x r t ->
    (forall x r t tok ts tr, I x r t -> drop_trivia r = tok :: ts -> tk_kind tok = TK_UNKNOWN ->
       I x ts (t ++ [ITok tr TK_UNKNOWN [tok]])) ->
    (forall x r r' t, I x r t -> R x r' t) ->
    (forall m x r t, m <= n -> Forall gooditem t -> I x r t -> drop_trivia r <> [] -> l_at TK_UNKNOWN (drop_trivia r) = false ->
       J m (drop_trivia r) [] t
         (bind (early x) (fun y => if fst y : bool then Ret (inr (snd y)) else bind (child (snd y)) (fun x2 => Ret (inl x2))))
         (fun y r' t' => match y with inr b => R b r' t' | inl x' => I x' r' t' end)) ->
    J n r [] t (parse_many_st early child x) R.
  Proof.
    intros H0 Hu HR Hf. apply J_many_end with (I := I); [exact H0|exact Hu|intros; eapply HR; eauto|].
    intros m x1 r1 t1 Hm G HI Hn E. eapply J_mono; [apply Hf; assumption|]. intros [x'|b] r2 t2 _ H; [|exact H]. split; [exact H|]. eapply HR; eauto.
  Qed.
End Shape.
