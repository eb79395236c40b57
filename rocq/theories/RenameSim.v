(** The parser's primitives on token lists that differ in the words they use only. *)
From Coq Require Import NArith String Bool Arith Lia List.
Import ListNotations.
From Verif Require Import Text Kind Regex Lexer LexerProofs ParserApi GrammarExpr GrammarTags GrammarHtml Machine
  TreeMachine Simulation Rename.
Local Notation length := List.length (only parsing).
Local Open Scope list_scope.
Local Open Scope prog_scope.

Lemma Forall2_weaken (A B : Type) (P Q : A -> B -> Prop) l l' : (forall x y, P x y -> Q x y) -> Forall2 P l l' -> Forall2 Q l l'.
Proof. induction 2; constructor; auto. Qed.
Lemma Forall2_len (A B : Type) (P : A -> B -> Prop) l l' : Forall2 P l l' -> length l = length l'.
Proof. induction 1; cbn; auto. Qed.

Section Sim.
  Context (dbg : bool) (T T' : list token) (HT : T <> []) (REN : renaming T T').

  Definition pairR (t t' : token) : Prop := In (t, t') (combine T T').
  Definition tokR (t t' : token) : Prop :=
    tk_kind t = tk_kind t' /\
    exists u u', pairR u u' /\ tk_text t = tk_text u /\ tk_text t' = tk_text u' /\
      tk_start t = tk_start u /\ tk_end t = tk_end u /\ tk_start t' = tk_start u' /\ tk_end t' = tk_end u'.

  Lemma pairs : Forall2 pairR T T'.
  Proof.
    destruct REN as [H _]. unfold pairR. clear -H. induction H as [|t t' T T' H F IH]; constructor; [now left|].
    eapply Forall2_weaken; [|exact IH]. intros. now right.
  Qed.
  Lemma pair_kind t t' : pairR t t' -> tk_kind t = tk_kind t'.
  Proof.
    unfold pairR. destruct REN as [H _]. clear -H. induction H as [|x x' T T' [K _] F IH]; intros P; [destruct P|].
    destruct P as [E|P]; [injection E as -> ->; exact K|auto].
  Qed.
  Lemma pair_sort t t' : pairR t t' -> same_sort (tk_text t) (tk_text t').
  Proof.
    unfold pairR. destruct REN as [H _]. clear -H. induction H as [|x x' T T' [_ K] F IH]; intros P; [destruct P|].
    destruct P as [E|P]; [injection E as -> ->; exact K|auto].
  Qed.
  Lemma pair_tok t t' : pairR t t' -> tokR t t'.
  Proof. intros H. split; [now apply pair_kind|]. exists t, t'. auto 10. Qed.
  Lemma tok_replaced t t' : tokR t t' -> replaced T T' (tk_text t) (tk_text t').
  Proof. intros (_ & u & u' & P & -> & -> & _). exists u, u'. auto. Qed.
  Lemma replaced_sort w w' : replaced T T' w w' -> same_sort w w'.
  Proof. intros (t & t' & P & <- & <-). now apply pair_sort. Qed.
  Lemma replaced_eqb v v' w w' : replaced T T' v v' -> replaced T T' w w' -> text_eqb v' w' = text_eqb v w.
  Proof.
    intros (t & t' & P & <- & <-) (u & u' & Q & <- & <-). destruct REN as [_ E]. specialize (E t t' u u' P Q).
    destruct (text_eqb (tk_text t) (tk_text u)) eqn:X.
    - apply text_eqb_eq in X. apply text_eqb_eq. tauto.
    - destruct (text_eqb (tk_text t') (tk_text u')) eqn:Y; [|reflexivity]. apply text_eqb_eq in Y. apply E in Y. apply text_eqb_eq in Y. congruence.
  Qed.

  Inductive irel : item -> item -> Prop :=
  | IR_tok tr tr' k t t' : Forall2 pairR tr tr' -> pairR t t' -> irel (ITok tr k [t]) (ITok tr' k [t'])
  | IR_two tr tr' k t t' u u' : Forall2 pairR tr tr' -> pairR t t' -> pairR u u' -> irel (ITok tr k [t; u]) (ITok tr' k [t'; u'])
  | IR_triv tr tr' : Forall2 pairR tr tr' -> irel (ITriv tr) (ITriv tr')
  | IR_node m t t' : renamed T T' t t' -> irel (INode m t) (INode m t')
  | IR_lock t t' : renamed T T' t t' -> irel (ILock t) (ILock t').

  Lemma leaf_renamed t t' : pairR t t' -> renamed T T' (leaf t) (leaf t').
  Proof. intros P. unfold leaf. rewrite (pair_kind _ _ P). constructor. now exists t, t'. Qed.
  Lemma leaves_renamed l l' : Forall2 pairR l l' -> Forall2 (renamed T T') (map leaf l) (map leaf l').
  Proof. induction 1; constructor; auto using leaf_renamed. Qed.
  Lemma irel_trees i i' : irel i i' -> Forall2 (renamed T T') (item_trees i) (item_trees i').
  Proof.
    intros []; cbn [item_trees map List.concat].
    - apply Forall2_app; [now apply leaves_renamed|]. constructor; [|constructor]. rewrite !app_nil_r. constructor. now exists t, t'.
    - apply Forall2_app; [now apply leaves_renamed|]. constructor; [|constructor]. rewrite !app_nil_r. constructor; [now exists t, t'|now exists u, u'].
    - now apply leaves_renamed.
    - auto.
    - auto.
  Qed.
  Lemma irels_trees l l' : Forall2 irel l l' -> Forall2 (renamed T T') (trees l) (trees l').
  Proof. induction 1; cbn [trees flat_map]; [constructor|]. apply Forall2_app; [now apply irel_trees|exact IHForall2]. Qed.
  Lemma lock_irel i i' : irel i i' -> irel (lock i) (lock i').
  Proof. intros []; cbn; constructor; auto. Qed.
  Lemma locks_irel l l' : Forall2 irel l l' -> Forall2 irel (map lock l) (map lock l').
  Proof. induction 1; constructor; auto using lock_irel. Qed.
  Lemma split_irel c l l' : Forall2 irel l l' ->
    match split_node c l, split_node c l' with
    | Some (a, t, b), Some (a', t', b') => Forall2 irel a a' /\ renamed T T' t t' /\ Forall2 irel b b'
    | None, None => True
    | _, _ => False
    end.
  Proof.
    intros H. induction H as [|i i' l l' Hi H IH]; [exact I|]. cbn [split_node].
    destruct (split_node c l) as [[[a t] b]|], (split_node c l') as [[[a' t'] b']|]; try contradiction.
    - destruct IH as (H1 & H2 & H3). repeat split; auto.
    - destruct Hi; auto. destruct (Nat.eqb m c); auto.
  Qed.

  (** * States *)
  Definition frame_rel (f f' : nat * list item) : Prop := fst f = fst f' /\ Forall2 irel (snd f) (snd f').
  Record srel (s s' : tstate) : Prop := mkS {
    sr_rest : Forall2 pairR (t_rest s) (t_rest s');
    sr_snk : Forall2 pairR (t_snk s) (t_snk s');
    sr_items : Forall2 irel (t_items s) (t_items s');
    sr_stack : Forall2 frame_rel (t_stack s) (t_stack s');
    sr_nev : t_nev s = t_nev s';
    sr_errs : Forall2 (same_mistake T T') (t_errs s) (t_errs s') }.
  Definition both {A : Set} (R : A -> A -> Prop) (x x' : res (A * tstate)) : Prop :=
    match x, x' with
    | OK (a, s), OK (a', s') => R a a' /\ srel s s'
    | Panicked q, Panicked q' => q = q'
    | NoFuel, NoFuel => True
    | _, _ => False
    end.

  Notation step := (tstep false dbg T).
  Notation step' := (tstep false dbg T').
  Definition sim {A : Set} (n : nat) (p p' : prog A) (R : A -> A -> Prop) : Prop :=
    forall s s', srel s s' -> both R (run step n p s) (run step' n p' s').

  Lemma both_bind : forall (A B : Set) (R1 : A -> A -> Prop) (R : B -> B -> Prop) x x' f f',
    both R1 x x' ->
    (forall a a' s s', R1 a a' -> srel s s' -> both R (f (a, s)) (f' (a', s'))) ->
    both R (rbind x f) (rbind x' f').
  Proof. intros A B R1 R [[a s]|q|] [[a' s']|q'|] f f' H Hf; cbn in *; try contradiction; auto. destruct H. auto. Qed.
  Lemma sim_ret : forall (A : Set) n (a a' : A) (R : A -> A -> Prop), R a a' -> sim n (Ret a) (Ret a') R.
  Proof. intros A n a a' R H s s' HS. rewrite !run_Ret. cbn. auto. Qed.
  Lemma sim_bind : forall (A B : Set) n (p p' : prog A) (g g' : A -> prog B) (R1 : A -> A -> Prop) (R : B -> B -> Prop),
    sim n p p' R1 -> (forall a a', R1 a a' -> sim n (g a) (g' a') R) -> sim n (bind p g) (bind p' g') R.
  Proof.
    intros A B n p p' g g' R1 R Hp Hg s s' HS. rewrite !run_bind.
    eapply both_bind; [apply Hp, HS|]. intros. cbn [fst snd]. now apply Hg.
  Qed.
  Lemma sim_op : forall (A B : Set) n (o o' : op B) (k k' : B -> prog A) (R1 : B -> B -> Prop) (R : A -> A -> Prop),
    (forall s s', srel s s' -> both R1 (step B o s) (step' B o' s')) ->
    (forall a a', R1 a a' -> sim n (k a) (k' a') R) -> sim n (Op o k) (Op o' k') R.
  Proof.
    intros A B n o o' k k' R1 R Ho Hk s s' HS. rewrite !run_Op.
    eapply both_bind; [apply Ho, HS|]. intros. cbn [fst snd]. now apply Hk.
  Qed.
  Lemma sim_prim : forall (B : Set) n (o o' : op B) (R : B -> B -> Prop),
    (forall s s', srel s s' -> both R (step B o s) (step' B o' s')) -> sim n (prim o) (prim o') R.
  Proof. intros. eapply sim_op; eauto. intros. now apply sim_ret. Qed.
  Lemma sim_call : forall (A : Set) n c (k k' : option nat -> prog A) (R : A -> A -> Prop),
    (forall m, m < n -> sim m (body c) (body c) eq) ->
    (forall a, sim n (k a) (k' a) R) -> sim n (Call c k) (Call c k') R.
  Proof.
    intros A n c k k' R Hc Hk s s' HS. rewrite !run_Call.
    eapply both_bind with (R1 := eq).
    - destruct n as [|n']; [exact I|]. apply Hc; [lia|exact HS].
    - intros a a' s1 s1' <- HS1. cbn [fst snd]. now apply Hk.
  Qed.
  Definition sumR {X B : Set} (RX : X -> X -> Prop) (R : B -> B -> Prop) (y y' : X + B) : Prop :=
    match y, y' with inl x, inl x' => RX x x' | inr b, inr b' => R b b' | _, _ => False end.
  Lemma sim_iter : forall (A X B : Set) n (f f' : X -> prog (X + B)) x (k k' : B -> prog A)
    (R1 : B -> B -> Prop) (R : A -> A -> Prop),
    (forall m x, m <= n -> sim m (f x) (f' x) (sumR eq R1)) ->
    (forall b b', R1 b b' -> sim n (k b) (k' b') R) ->
    sim n (Iter f x k) (Iter f' x k') R.
  Proof.
    intros A X B n f f' x k k' R1 R Hf Hk.
    assert (H : forall m x, m <= n -> sim m (Iter f x (fun b => Ret b)) (Iter f' x (fun b => Ret b)) R1).
    { clear x. induction m as [|m IH]; intros x Hm s s' HS; rewrite !run_Iter;
      (eapply both_bind with (R1 := R1);
       [eapply both_bind; [apply Hf; [exact Hm|exact HS]|]|
        intros a a' s1 s1' Ha HS1; cbn [fst snd]; rewrite !run_Ret; cbn; auto]);
      intros [x1|b] [x1'|b'] s1 s1' Ha HS1; cbn [sumR] in Ha; try contradiction; cbn [fst snd].
      - exact I.
      - cbn. auto.
      - subst x1'. apply IH; [lia|exact HS1].
      - cbn. auto. }
    intros s s' HS. rewrite !run_Iter.
    eapply both_bind with (R1 := R1).
    - eapply both_bind; [apply Hf; [lia|exact HS]|].
      intros [x1|b] [x1'|b'] s1 s1' Ha HS1; cbn [sumR] in Ha; try contradiction; cbn [fst snd].
      + subst x1'. destruct n as [|n']; [exact I|]. apply H; [lia|exact HS1].
      + cbn. auto.
    - intros. cbn [fst snd]. now apply Hk.
  Qed.

  (** * Primitives *)
  Lemma drop_pairs l l' : Forall2 pairR l l' -> Forall2 pairR (drop_trivia l) (drop_trivia l').
  Proof.
    induction 1 as [|t t' l l' P F IH]; [constructor|]. cbn [drop_trivia]. rewrite <- (pair_kind _ _ P).
    destruct (is_trivia (tk_kind t)); [exact IH|now constructor].
  Qed.
  Lemma take_pairs l l' : Forall2 pairR l l' -> Forall2 pairR (take_trivia l) (take_trivia l').
  Proof.
    induction 1 as [|t t' l l' P F IH]; [constructor|]. cbn [take_trivia]. rewrite <- (pair_kind _ _ P).
    destruct (is_trivia (tk_kind t)); [now constructor|constructor].
  Qed.
  Lemma nontriv_pairs l l' : Forall2 pairR l l' -> Forall2 pairR (nontriv l) (nontriv l').
  Proof.
    induction 1 as [|t t' l l' P F IH]; [constructor|]. cbn [nontriv filter]. rewrite <- (pair_kind _ _ P).
    destruct (is_trivia (tk_kind t)); [exact IH|now constructor].
  Qed.
  Lemma srel_drop s s' : srel s s' ->
    srel (mkT (drop_trivia (t_rest s)) (t_snk s) (t_items s) (t_stack s) (t_nev s) (t_errs s))
         (mkT (drop_trivia (t_rest s')) (t_snk s') (t_items s') (t_stack s') (t_nev s') (t_errs s')).
  Proof. intros []. constructor; cbn [t_rest t_snk t_items t_stack t_nev t_errs]; auto using drop_pairs. Qed.

  Definition lookr {B : Set} (f f' : list token -> B) (R : B -> B -> Prop) : Prop :=
    forall r r', Forall2 pairR r r' -> R (f r) (f' r').
  Lemma sim_look : forall (B : Set) n (f f' : list token -> B) (R : B -> B -> Prop), lookr f f' R -> sim n (look f) (look f') R.
  Proof.
    intros B n f f' R Hf. eapply sim_op with (R1 := Forall2 pairR).
    - intros s s' HS. cbn. split; [apply drop_pairs, HS|now apply srel_drop].
    - intros r r' H. apply sim_ret. now apply Hf.
  Qed.
  Lemma sim_dassert : forall n site (f : list token -> bool), lookr f f eq -> sim n (prim (DAssert site f)) (prim (DAssert site f)) eq.
  Proof.
    intros n site f Hf. apply sim_prim. intros s s' HS. cbn [tstep]. destruct dbg.
    - rewrite <- (Hf (drop_trivia (t_rest s)) (drop_trivia (t_rest s'))) by (apply drop_pairs, HS).
      destruct (f (drop_trivia (t_rest s))); cbn; [|reflexivity]. split; [reflexivity|]. now apply srel_drop.
    - cbn. auto.
  Qed.
  Lemma sim_bump_as : forall n site as_, sim n (prim (BumpAs site as_)) (prim (BumpAs site as_)) tokR.
  Proof.
    intros n site as_. apply sim_prim. intros s s' HS. cbn [tstep].
    destruct (drop_pairs _ _ (sr_rest _ _ HS)) as [|t t' r r' P F]; [reflexivity|].
    destruct (drop_pairs _ _ (sr_snk _ _ HS)) as [|u u' q q' Q G]; [reflexivity|]. cbn [both]. rewrite <- (pair_kind _ _ P).
    split; [split; [reflexivity|]; exists t, t'; cbn; auto 10|].
    pose proof (take_pairs _ _ (sr_snk _ _ HS)) as TK. destruct HS. constructor; cbn [t_rest t_snk t_items t_stack t_nev t_errs]; auto.
    apply Forall2_app; [assumption|]. constructor; [now constructor|constructor].
  Qed.
  Lemma sim_bump_two : forall n k, sim n (bump_next_n_as 2 k) (bump_next_n_as 2 k) (fun _ _ => True).
  Proof.
    intros n k. apply sim_prim. intros s s' HS. cbn [tstep].
    destruct (drop_pairs _ _ (sr_rest _ _ HS)) as [|t t' r r' P [|v v' r2 r2' P2 F]]; cbn [firstn skipn List.length Nat.eqb]; [reflexivity|reflexivity|].
    destruct (drop_pairs _ _ (sr_snk _ _ HS)) as [|u u' q q' Q [|w w' q2 q2' Q2 G]]; cbn [firstn skipn List.length Nat.leb]; [reflexivity|reflexivity|].
    cbn [both]. split; [exact I|].
    pose proof (take_pairs _ _ (sr_snk _ _ HS)) as TK. destruct HS. constructor; cbn [t_rest t_snk t_items t_stack t_nev t_errs]; auto.
    apply Forall2_app; [assumption|]. constructor; [now constructor|constructor].
  Qed.
  Lemma sim_trivia : forall n, sim n explicitly_consume_trivia explicitly_consume_trivia eq.
  Proof.
    intros n. apply sim_prim. intros s s' HS. cbn [tstep both]. split; [reflexivity|].
    pose proof (take_pairs _ _ (sr_snk _ _ HS)) as TK. pose proof (drop_pairs _ _ (sr_snk _ _ HS)) as DK.
    destruct HS. constructor; cbn [t_rest t_snk t_items t_stack t_nev t_errs]; auto.
    apply Forall2_app; [assumption|]. constructor; [now constructor|constructor].
  Qed.

  (** messages: the same, or with a replaced name *)
  Definition says (e e' : text) : Prop := e = e' \/ exists a w w' b, replaced T T' w w' /\ e = a ++ w ++ b /\ e' = a ++ w' ++ b.
  Lemma rev_pairs l l' : Forall2 pairR l l' -> Forall2 pairR (rev l) (rev l').
  Proof. induction 1; cbn [rev]; [constructor|]. apply Forall2_app; [assumption|]. constructor; [assumption|constructor]. Qed.
  Lemma sim_add_error_t : forall n e e', says e e' -> sim n (add_error_t e) (add_error_t e') eq.
  Proof.
    intros n e e' Y. apply sim_prim. intros s s' HS. cbn [tstep]. pose proof (srel_drop _ _ HS) as HD. revert HD.
    destruct (drop_pairs _ _ (sr_rest _ _ HS)) as [|t t' r r' P F]; intros HD; cbn [error_here].
    - pose proof (rev_pairs _ _ pairs) as RP. destruct (rev T) as [|x l] eqn:R.
      { apply (f_equal (@rev token)) in R. rewrite rev_involutive in R. contradiction. }
      inversion RP as [|? x' ? l' P F E1 E2]; subst. cbn. split; [reflexivity|]. destruct HD. constructor; auto. apply Forall2_app; [assumption|].
      constructor; [|constructor]. split; [reflexivity|]. split; [exists x, x'; auto 10|exact Y].
    - cbn. split; [reflexivity|]. destruct HD. constructor; auto. apply Forall2_app; [assumption|].
      constructor; [|constructor]. split; [cbn; f_equal; now apply pair_kind|]. split; [exists t, t'; auto 10|exact Y].
  Qed.
  Lemma sim_add_error : forall n e, sim n (add_error e) (add_error e) eq.
  Proof. intros. apply sim_add_error_t. now left. Qed.
  Lemma sim_add_error_at : forall n e e' t t', says e e' -> tokR t t' -> sim n (add_error_at e t) (add_error_at e' t') eq.
  Proof.
    intros n e e' t t' Y (K & u & u' & P & _ & _ & S1 & S2 & S3 & S4). apply sim_prim. intros s s' HS. cbn. split; [reflexivity|].
    destruct HS. constructor; auto. apply Forall2_app; [assumption|].
    constructor; [|constructor]. split; [cbn; congruence|]. split; [exists u, u'; auto 10|exact Y].
  Qed.

  Lemma sim_start : forall n, sim n start start eq.
  Proof.
    intros n. apply sim_prim. intros s s' HS. cbn. split; [apply HS|]. destruct HS. constructor; cbn; auto.
    constructor; auto. split; auto.
  Qed.
  Lemma sim_complete : forall n m k, sim n (complete m k) (complete m k) eq.
  Proof.
    intros n m k. apply sim_prim. intros s s' HS. cbn [tstep]. destruct HS.
    destruct sr_stack0 as [|[x y] [x' y'] l l' [E F] H]; [reflexivity|]. cbn [fst snd] in *. subst x'.
    destruct (Nat.eqb x m); [|reflexivity]. cbn. split; [reflexivity|].
    constructor; cbn; auto. apply Forall2_app; [assumption|]. constructor; [|constructor]. constructor.
    constructor. now apply irels_trees.
  Qed.
  Lemma sim_precede : forall n c, sim n (precede c) (precede c) eq.
  Proof.
    intros n c. apply sim_prim. intros s s' HS. cbn [tstep].
    pose proof (split_irel c _ _ (sr_items _ _ HS)) as H.
    destruct (split_node c (t_items s)) as [[[a t] b]|], (split_node c (t_items s')) as [[[a' t'] b']|]; try contradiction; [|reflexivity].
    destruct H as (H1 & H2 & H3). cbn. split; [apply HS|]. destruct HS. constructor; cbn; auto.
    - constructor; [now constructor|now apply locks_irel].
    - constructor; auto. split; auto.
  Qed.
  Lemma sim_fail : forall (B : Set) n p (R : B -> B -> Prop), sim n (fail p) (fail p) R.
  Proof. intros B n p R s s' HS. unfold fail. rewrite !run_Op. reflexivity. Qed.
  Lemma sim_pos : forall n, sim n get_pos get_pos eq.
  Proof.
    intros n. apply sim_prim. intros s s' HS. cbn. split; [|exact HS]. f_equal; [exact (Forall2_len _ _ _ _ _ pairs)|].
    exact (Forall2_len _ _ _ _ _ (sr_rest _ _ HS)).
  Qed.

  (** * Look-ahead *)
  Lemma lookr_at : forall k, lookr (l_at k) (l_at k) eq.
  Proof. intros k r r' []; cbn; [reflexivity|]. now rewrite (pair_kind _ _ H). Qed.
  Lemma lookr_kind : lookr l_kind l_kind eq.
  Proof. intros r r' []; cbn; [reflexivity|]. now rewrite (pair_kind _ _ H). Qed.
  Lemma lookr_at_set : forall set, lookr (l_at_set set) (l_at_set set) eq.
  Proof. intros k r r' []; cbn; [reflexivity|]. now rewrite (pair_kind _ _ H). Qed.
  Lemma lookr_at_end : lookr l_at_end l_at_end eq.
  Proof. intros r r' []; reflexivity. Qed.
  Definition contentR (p p' : kind * option text) : Prop :=
    fst p = fst p' /\ match snd p, snd p' with Some w, Some w' => (w = [] /\ w' = []) \/ replaced T T' w w' | None, None => True | _, _ => False end.
  Lemma replaced_nonempty w w' : replaced T T' w w' -> text_eqb [] w' = text_eqb [] w.
  Proof. intros R. destruct (replaced_sort _ _ R) as [->|(A & B & _)]; [reflexivity|]. destruct w, w'; try contradiction. reflexivity. Qed.
  Lemma l_follow_same : forall l l', Forall2 pairR l l' -> forall set set', Forall2 contentR set set' -> l_follow set l = l_follow set' l'.
  Proof.
    induction 1 as [|t t' l l' P F IH]; intros set set' [|[k c] [k' c'] s s' [K C] G]; cbn [l_follow]; auto.
    cbn [fst snd] in *. subst k'. rewrite <- (pair_kind _ _ P), (IH s s' G).
    assert (RP : replaced T T' (tk_text t) (tk_text t')) by (now exists t, t').
    replace (match c' with None => true | Some w => text_eqb w (tk_text t') end) with (match c with None => true | Some w => text_eqb w (tk_text t) end); [reflexivity|].
    destruct c as [w|], c' as [w'|]; try contradiction; [|reflexivity]. destruct C as [[-> ->]|C].
    - symmetry. now apply replaced_nonempty.
    - symmetry. now apply replaced_eqb.
  Qed.
  Lemma lookr_following_content : forall set set', Forall2 contentR set set' -> lookr (l_following_content set) (l_following_content set') eq.
  Proof.
    intros set set' S r r' H. pose proof (l_follow_same _ _ (nontriv_pairs _ _ H) set set' S) as E. unfold l_following_content.
    destruct H; [reflexivity|exact E].
  Qed.
  Lemma lookr_following : forall set, lookr (l_following set) (l_following set) eq.
  Proof.
    intros. apply lookr_following_content. induction set as [|k set IH]; constructor; [|exact IH]. split; [reflexivity|exact I].
  Qed.
  Lemma lookr_next_kind : lookr l_next_kind l_next_kind eq.
  Proof.
    intros r r' [|t t' q q' P F]; [reflexivity|]. cbn [l_next_kind]. apply lookr_kind. now apply nontriv_pairs.
  Qed.
  Lemma lookr_twig_tag : forall k, lookr (l_twig_tag k) (l_twig_tag k) eq.
  Proof. intros k r r' H. unfold l_twig_tag. now rewrite (lookr_at_set _ r r'), (lookr_next_kind r r'). Qed.
  Lemma lookr_termination_tag : lookr l_termination_tag l_termination_tag eq.
  Proof. intros r r' H. unfold l_termination_tag. now rewrite (lookr_at_set _ r r'), (lookr_next_kind r r'). Qed.
  Lemma lookr_less_than_non_word : lookr l_less_than_non_word l_less_than_non_word eq.
  Proof.
    intros r r' H. unfold l_less_than_non_word. rewrite (lookr_at _ r r') by auto. f_equal.
    destruct H as [|t t' q q' P [|u u' q2 q2' P2 F]]; [reflexivity|reflexivity|]. cbn [nth_error]. now rewrite (pair_kind _ _ P2).
  Qed.
  Lemma lookr_html_text_end : lookr l_html_text_end l_html_text_end eq.
  Proof. intros r r' H. unfold l_html_text_end. now rewrite !(lookr_at_set _ r r'), (lookr_less_than_non_word r r'). Qed.
  Lemma lookr_orb : forall f g : list token -> bool, lookr f f eq -> lookr g g eq -> lookr (fun r => f r || g r) (fun r => f r || g r) eq.
  Proof. intros f g Hf Hg r r' H. now rewrite (Hf r r'), (Hg r r'). Qed.
  Lemma lookr_andb : forall f g : list token -> bool, lookr f f eq -> lookr g g eq -> lookr (fun r => f r && g r) (fun r => f r && g r) eq.
  Proof. intros f g Hf Hg r r' H. now rewrite (Hf r r'), (Hg r r'). Qed.
  Lemma lookr_negb : forall f : list token -> bool, lookr f f eq -> lookr (fun r => negb (f r)) (fun r => negb (f r)) eq.
  Proof. intros f Hf r r' H. now rewrite (Hf r r'). Qed.
  Definition opt_tok (o o' : option token) : Prop :=
    match o, o' with Some t, Some t' => tokR t t' | None, None => True | _, _ => False end.
  Lemma lookr_peek : lookr (@hd_error token) (@hd_error token) opt_tok.
  Proof. intros r r' [|t t' q q' P F]; [exact I|now apply pair_tok]. Qed.

  (** * Loops that stop when nothing is consumed *)
  Lemma sim_many : forall (X : Set) n (early early' : X -> prog (bool * X)) (child child' : X -> prog X) x,
    (forall m x, m <= n -> sim m (early x) (early' x) eq) ->
    (forall m x, m <= n -> sim m (child x) (child' x) eq) ->
    sim n (parse_many_st early child x) (parse_many_st early' child' x) eq.
  Proof.
    intros X n early early' child child' x He Hc. unfold parse_many_st.
    apply sim_iter with (R1 := eq); [|intros b b' <-; now apply sim_ret].
    clear x. intros m x Hm.
    apply sim_bind with (R1 := eq); [apply sim_pos|]. intros p ? <-.
    apply sim_bind with (R1 := eq); [apply sim_look, lookr_at|]. intros b b' <-. destruct b.
    { apply sim_bind with (R1 := tokR); [apply sim_bump_as|]. intros. apply sim_ret. reflexivity. }
    apply sim_bind with (R1 := eq); [apply sim_look, lookr_at_end|]. intros b b' <-. destruct b.
    { apply sim_ret. reflexivity. }
    apply sim_bind with (R1 := eq); [now apply He|]. intros [b x1] ? <-. destruct b.
    { apply sim_ret. reflexivity. }
    apply sim_bind with (R1 := eq); [now apply Hc|]. intros x2 ? <-.
    apply sim_bind with (R1 := eq); [apply sim_pos|]. intros q ? <-.
    destruct (Nat.eqb _ _); apply sim_ret; reflexivity.
  Qed.
End Sim.
