(** Two runs of the tree machine on token lists that differ in white space only. *)
From Coq Require Import NArith String Bool Arith Lia List.
Import ListNotations.
From Verif Require Import Text Kind Regex Lexer LexerProofs ParserApi GrammarExpr GrammarTags GrammarHtml Machine
  TreeMachine Simulation Total Layout.
Local Notation length := List.length (only parsing).
Local Open Scope list_scope.

(** * Token lists *)

Lemma blank_triv : forall t, blank t -> is_trivia (tk_kind t) = true.
Proof. intros t H. apply H. Qed.

Lemma drop_blanks : forall g r, Forall blank g -> drop_trivia (g ++ r) = drop_trivia r.
Proof.
  induction 1 as [|t g H _ IH]; [reflexivity|]. cbn [app drop_trivia]. now rewrite (blank_triv _ H).
Qed.
Lemma nontriv_blanks : forall g r, Forall blank g -> nontriv (g ++ r) = nontriv r.
Proof.
  induction 1 as [|t g H _ IH]; [reflexivity|]. cbn [app nontriv filter]. now rewrite (blank_triv _ H).
Qed.
Lemma drop_tok : forall t r, is_trivia (tk_kind t) = false -> drop_trivia (t :: r) = t :: r.
Proof. intros t r H. cbn. now rewrite H. Qed.

Lemma sb_drop : forall r r', same_but_blanks r r' -> same_but_blanks (drop_trivia r) (drop_trivia r').
Proof.
  intros r r' H. destruct H as [g g' H H' E|g g' t t' r r' H H' E Ht S HR].
  - rewrite <- (app_nil_r g), <- (app_nil_r g'), !drop_blanks by assumption.
    apply SB_end; constructor.
  - rewrite !drop_blanks by assumption. rewrite !drop_tok; [|destruct S; congruence|exact Ht].
    apply (SB_tok [] []); auto.
Qed.

(** The possible shapes of two lists without white space in front. *)
Lemma sb_nf : forall r r', same_but_blanks r r' -> nf r -> nf r' ->
  (r = [] /\ r' = []) \/
  exists t t' q q', r = t :: q /\ r' = t' :: q' /\ is_trivia (tk_kind t) = false /\ same_tok t t' /\
    same_but_blanks q q'.
Proof.
  intros r r' H Hn Hn'. apply sb_drop in H. rewrite Hn, Hn' in H. unfold nf in Hn, Hn'.
  inversion H as [g g' H1 H2 E|g g' t t' q q' H1 H2 E Ht S HR]; subst.
  - left. rewrite <- (app_nil_r r), drop_blanks in Hn by assumption.
    rewrite <- (app_nil_r r'), drop_blanks in Hn' by assumption. cbn in Hn, Hn'. rewrite app_nil_r in *. auto.
  - right. rewrite drop_blanks, drop_tok in Hn by assumption.
    rewrite drop_blanks, drop_tok in Hn'; [|destruct S; congruence|assumption].
    exists t, t', q, q'. repeat split; auto; apply S.
Qed.

Lemma sb_nontriv : forall r r', same_but_blanks r r' -> Forall2 same_tok (nontriv r) (nontriv r').
Proof.
  induction 1 as [g g' H H' E|g g' t t' r r' H H' E Ht S HR IH].
  - rewrite <- (app_nil_r g), <- (app_nil_r g'), !nontriv_blanks by assumption. constructor.
  - rewrite !nontriv_blanks by assumption. cbn [nontriv filter].
    destruct S as [Sk St]. rewrite <- Sk, Ht. cbn [negb]. constructor; [now split|exact IH].
Qed.

Lemma sb_head : forall r r', same_but_blanks r r' -> head_kind r = head_kind r'.
Proof.
  intros r r' H. destruct H as [g g' H H' E|g g' t t' r r' H H' E Ht S HR]; [exact E|].
  destruct g as [|x g], g' as [|x' g']; try discriminate E; cbn in *; [|exact E].
  f_equal. apply S.
Qed.

Lemma sb_cons : forall t t' r r', is_trivia (tk_kind t) = false -> same_tok t t' -> same_but_blanks r r' ->
  same_but_blanks (t :: r) (t' :: r').
Proof. intros. apply (SB_tok [] []); auto. Qed.

(** * Positions *)

(** [at_gap T r]: the parser may stand in front of [r]: not inside of white space. *)
Definition at_gap (T r : list token) : Prop :=
  (exists p, T = p ++ r) /\
  (nf r \/ exists p t, T = p ++ t :: r /\ is_trivia (tk_kind t) = false).

Lemma suffixes : forall (A : Type) (p q a b : list A), p ++ a = q ++ b -> length a <= length b ->
  exists c, b = c ++ a /\ p = q ++ c.
Proof.
  intros A p q. revert p. induction q as [|x q IH]; intros p a b H L; cbn [app] in H.
  - exists p. auto.
  - destruct p as [|y p]; cbn [app] in H.
    + subst a. cbn [length] in L. rewrite app_length in L. lia.
    + injection H as -> H. apply IH in H as (c & -> & ->); [|exact L]. exists c. auto.
Qed.

Lemma nontriv_app : forall a b, nontriv (a ++ b) = nontriv a ++ nontriv b.
Proof. intros. apply filter_app. Qed.

Lemma gap_unique : forall T a b, at_gap T a -> at_gap T b -> length (nontriv a) = length (nontriv b) ->
  (nf a <-> nf b) -> length a <= length b -> a = b.
Proof.
  intros T a b [(p & Ea) Ha] [(q & Eb) Hb] L N LL.
  rewrite Ea in Eb. apply suffixes in Eb as (c & -> & ->); [|exact LL].
  rewrite nontriv_app, app_length in L.
  assert (Hc : Forall (fun t => is_trivia (tk_kind t) = true) c).
  { apply Forall_forall. intros x Hx. destruct (is_trivia (tk_kind x)) eqn:E; [reflexivity|].
    assert (In x (nontriv c)) by (apply filter_In; rewrite E; auto). destruct (nontriv c); [contradiction|cbn in L; lia]. }
  destruct c as [|x c]; [reflexivity|]. exfalso.
  inversion Hc as [|? ? Hx Hc']; subst.
  assert (Hd : ~ nf ((x :: c) ++ a)).
  { intros Hn. apply nf_cons in Hn. congruence. }
  destruct Ha as [Ha|(p1 & t & E1 & Ht)]; [apply Hd, N, Ha|].
  assert (E2 : p1 ++ [t] = q ++ x :: c).
  { apply (app_inv_tail a). rewrite <- !app_assoc. cbn [app]. rewrite <- E1. now rewrite <- app_assoc. }
  assert (Ht' : is_trivia (tk_kind t) = true).
  { assert (Hl : last (p1 ++ [t]) t = t) by apply last_last. rewrite E2 in Hl.
    assert (G : forall (l : list token) y d, Forall (fun t => is_trivia (tk_kind t) = true) (y :: l) ->
       is_trivia (tk_kind (last (q ++ y :: l) d)) = true).
    { clear. intros l y d. revert y. induction l as [|z l IH] using rev_ind; intros y H.
      - rewrite last_last. inversion H; auto.
      - rewrite app_comm_cons, app_assoc, last_last. rewrite app_comm_cons in H. apply Forall_app in H as [_ H]. inversion H; auto. }
    rewrite <- Hl. apply G. constructor; auto. }
  congruence.
Qed.

Lemma nf_head : forall r r', head_kind r = head_kind r' -> nf r -> nf r'.
Proof.
  intros r r' E H. destruct r as [|t r], r' as [|t' r']; cbn in E; try discriminate; [constructor|].
  injection E as E. apply nf_cons in H. unfold nf. apply drop_tok. congruence.
Qed.

Lemma Forall2_len : forall (A B : Type) (R : A -> B -> Prop) l l', Forall2 R l l' -> length l = length l'.
Proof. induction 1; cbn; congruence. Qed.

(** What the loops of the parser compare: whether they have moved. *)
Lemma same_moves : forall T T' a a' b b', at_gap T a -> at_gap T' a' -> at_gap T b -> at_gap T' b' ->
  same_but_blanks a a' -> same_but_blanks b b' ->
  Nat.eqb (length T - length a) (length T - length b) = Nat.eqb (length T' - length a') (length T' - length b').
Proof.
  assert (G : forall T T' a a' b b', at_gap T a -> at_gap T' a' -> at_gap T b -> at_gap T' b' ->
    same_but_blanks a a' -> same_but_blanks b b' ->
    length T - length a = length T - length b -> length T' - length a' = length T' - length b').
  { intros T T' a a' b b' Ga Ga' Gb Gb' Sa Sb E.
    assert (La : length T = length T - length a + length a).
    { destruct Ga as [(p & ->) _]. rewrite app_length. lia. }
    assert (Lb : length T = length T - length b + length b).
    { destruct Gb as [(p & ->) _]. rewrite app_length. lia. }
    assert (a = b).
    { destruct Ga as [(p & Ea) _], Gb as [(q & Eb) _]. rewrite Ea in Eb.
      apply suffixes in Eb as (c & -> & _); [|lia]. rewrite app_length in *. destruct c; [reflexivity|cbn in *; lia]. }
    subst b. pose proof (sb_head _ _ Sa) as Ha. pose proof (sb_head _ _ Sb) as Hb.
    assert (N : nf a' <-> nf b') by (split; apply nf_head; congruence).
    pose proof (Forall2_len _ _ _ _ _ (sb_nontriv _ _ Sa)) as N1. pose proof (Forall2_len _ _ _ _ _ (sb_nontriv _ _ Sb)) as N2.
    destruct (Nat.le_ge_cases (length a') (length b')) as [L|L].
    - now rewrite (gap_unique T' a' b' Ga' Gb') by (auto; lia).
    - rewrite (gap_unique T' b' a' Gb' Ga'); auto; [lia|tauto]. }
  assert (Sy : forall x y, same_but_blanks x y -> same_but_blanks y x).
  { clear. induction 1; constructor; auto; [destruct H3; congruence|destruct H3; split; congruence]. }
  intros T T' a a' b b' H1 H2 H3 H4 H5 H6.
  destruct (Nat.eqb_spec (length T - length a) (length T - length b)) as [E|E],
           (Nat.eqb_spec (length T' - length a') (length T' - length b')) as [E'|E']; auto; exfalso.
  - apply E'. now apply (G T T' a a' b b').
  - apply E. apply (G T' T a' a b' b); auto.
Qed.

(** * Items *)

Inductive irel : item -> item -> Prop :=
| IR_tok tr tr' k ts ts' : Forall blank tr -> Forall blank tr' ->
    concat (map tk_text ts) = concat (map tk_text ts') -> irel (ITok tr k ts) (ITok tr' k ts')
| IR_triv tr tr' : Forall blank tr -> Forall blank tr' -> irel (ITriv tr) (ITriv tr')
| IR_node m t t' : bare t = bare t' -> irel (INode m t) (INode m t')
| IR_lock t t' : bare t = bare t' -> irel (ILock t) (ILock t').

Lemma bare_blanks : forall tr, Forall blank tr -> flat_map bare (map leaf tr) = [].
Proof.
  induction 1 as [|t tr H _ IH]; [reflexivity|]. cbn [map flat_map leaf bare]. now rewrite (blank_triv _ H).
Qed.

Lemma irel_bare : forall i i', irel i i' -> flat_map bare (item_trees i) = flat_map bare (item_trees i').
Proof.
  intros i i' []; cbn [item_trees].
  - rewrite !flat_map_app, !bare_blanks by assumption. cbn [flat_map bare]. now rewrite H1.
  - now rewrite !bare_blanks.
  - cbn [flat_map]. now rewrite H.
  - cbn [flat_map]. now rewrite H.
Qed.
Lemma irels_bare : forall l l', Forall2 irel l l' -> flat_map bare (trees l) = flat_map bare (trees l').
Proof.
  induction 1 as [|i i' l l' H _ IH]; [reflexivity|]. unfold trees. cbn [flat_map].
  rewrite !flat_map_app. rewrite (irel_bare _ _ H). f_equal. exact IH.
Qed.

Lemma lock_irel : forall i i', irel i i' -> irel (lock i) (lock i').
Proof. intros i i' []; cbn; constructor; auto. Qed.
Lemma locks_irel : forall l l', Forall2 irel l l' -> Forall2 irel (map lock l) (map lock l').
Proof. induction 1; cbn; constructor; auto using lock_irel. Qed.

Lemma split_irel : forall c l l', Forall2 irel l l' ->
  match split_node c l, split_node c l' with
  | Some (a, t, b), Some (a', t', b') => Forall2 irel a a' /\ bare t = bare t' /\ Forall2 irel b b'
  | None, None => True
  | _, _ => False
  end.
Proof.
  intros c l l' H. induction H as [|i i' l l' Hi H IH]; [exact I|]. cbn [split_node].
  destruct (split_node c l) as [[[a t] b]|], (split_node c l') as [[[a' t'] b']|]; try contradiction.
  - destruct IH as (H1 & H2 & H3). repeat split; auto.
  - destruct Hi; auto. destruct (Nat.eqb m c); auto.
Qed.

(** * States *)

Section Sim.
  Context (dbg : bool) (T T' : list token) (HT : T <> []) (HT' : T' <> []).
  (** the white space of both lists consists of blanks *)
  Context (BT : forall t, In t T -> is_trivia (tk_kind t) = true -> blank t)
          (BT' : forall t, In t T' -> is_trivia (tk_kind t) = true -> blank t).

  Definition frame_rel (f f' : nat * list item) : Prop := fst f = fst f' /\ Forall2 irel (snd f) (snd f').

  Record srel (s s' : tstate) : Prop := mkS {
    sr_rest : same_but_blanks (t_rest s) (t_rest s');
    sr_gap : at_gap T (t_rest s);
    sr_gap' : at_gap T' (t_rest s');
    sr_sync : drop_trivia (t_snk s) = drop_trivia (t_rest s);
    sr_sync' : drop_trivia (t_snk s') = drop_trivia (t_rest s');
    sr_snk : exists p, T = p ++ t_snk s;
    sr_snk' : exists p, T' = p ++ t_snk s';
    sr_items : Forall2 irel (t_items s) (t_items s');
    sr_stack : Forall2 frame_rel (t_stack s) (t_stack s');
    sr_nev : t_nev s = t_nev s';
    sr_errs : Forall2 same_error (t_errs s) (t_errs s') }.

  Definition both {A : Set} (R : A -> A -> Prop) (x x' : res (A * tstate)) : Prop :=
    match x, x' with
    | OK (a, s), OK (a', s') => R a a' /\ srel s s'
    | Panicked q, Panicked q' => q = q'
    | NoFuel, NoFuel => True
    | _, _ => False
    end.

  Notation step := (tstep false dbg T).
  Notation step' := (tstep false dbg T').

  Definition sim {A : Set} (n : nat) (p p' : prog A) (R : A -> A -> Prop) : Prop :=
    forall s s', srel s s' -> both R (run step n p s) (run step' n p' s').

  Lemma both_bind : forall (A B : Set) (R1 : A -> A -> Prop) (R : B -> B -> Prop) x x' f f',
    both R1 x x' ->
    (forall a a' s s', R1 a a' -> srel s s' -> both R (f (a, s)) (f' (a', s'))) ->
    both R (rbind x f) (rbind x' f').
  Proof. intros A B R1 R [[a s]|q|] [[a' s']|q'|] f f' H Hf; cbn in *; try contradiction; auto. destruct H. auto. Qed.

  Lemma both_mono : forall (A : Set) (R1 R : A -> A -> Prop) x x', (forall a a', R1 a a' -> R a a') ->
    both R1 x x' -> both R x x'.
  Proof. intros A R1 R [[a s]|q|] [[a' s']|q'|] HR H; cbn in *; try contradiction; auto. destruct H. auto. Qed.

  Lemma sim_ret : forall (A : Set) n (a a' : A) (R : A -> A -> Prop), R a a' -> sim n (Ret a) (Ret a') R.
  Proof. intros A n a a' R H s s' HS. rewrite !run_Ret. cbn. auto. Qed.

  Lemma sim_bind : forall (A B : Set) n (p p' : prog A) (g g' : A -> prog B) (R1 : A -> A -> Prop) (R : B -> B -> Prop),
    sim n p p' R1 -> (forall a a', R1 a a' -> sim n (g a) (g' a') R) -> sim n (bind p g) (bind p' g') R.
  Proof.
    intros A B n p p' g g' R1 R Hp Hg s s' HS. rewrite !run_bind.
    eapply both_bind; [apply Hp, HS|]. intros. cbn [fst snd]. now apply Hg.
  Qed.

  Lemma sim_mono : forall (A : Set) n (p p' : prog A) (R1 R : A -> A -> Prop),
    sim n p p' R1 -> (forall a a', R1 a a' -> R a a') -> sim n p p' R.
  Proof. intros A n p p' R1 R H HR s s' HS. eapply both_mono; eauto. Qed.

  Lemma sim_op : forall (A B : Set) n (o o' : op B) (k k' : B -> prog A) (R1 : B -> B -> Prop) (R : A -> A -> Prop),
    (forall s s', srel s s' -> both R1 (step B o s) (step' B o' s')) ->
    (forall a a', R1 a a' -> sim n (k a) (k' a') R) -> sim n (Op o k) (Op o' k') R.
  Proof.
    intros A B n o o' k k' R1 R Ho Hk s s' HS. rewrite !run_Op.
    eapply both_bind; [apply Ho, HS|]. intros. cbn [fst snd]. now apply Hk.
  Qed.

  Lemma sim_prim : forall (B : Set) n (o o' : op B) (R : B -> B -> Prop),
    (forall s s', srel s s' -> both R (step B o s) (step' B o' s')) -> sim n (prim o) (prim o') R.
  Proof. intros. eapply sim_op; eauto. intros. now apply sim_ret. Qed.

  Lemma sim_call : forall (A : Set) n c (k k' : option nat -> prog A) (R : A -> A -> Prop),
    (forall m, m < n -> sim m (body c) (body c) eq) ->
    (forall a, sim n (k a) (k' a) R) -> sim n (Call c k) (Call c k') R.
  Proof.
    intros A n c k k' R Hc Hk s s' HS. rewrite !run_Call.
    eapply both_bind with (R1 := eq).
    - destruct n as [|n']; [exact I|]. apply Hc; [lia|exact HS].
    - intros a a' s1 s1' <- HS1. cbn [fst snd]. now apply Hk.
  Qed.

  Definition sumR {X B : Set} (RX : X -> X -> Prop) (R : B -> B -> Prop) (y y' : X + B) : Prop :=
    match y, y' with inl x, inl x' => RX x x' | inr b, inr b' => R b b' | _, _ => False end.

  Lemma sim_iter : forall (A X B : Set) n (f f' : X -> prog (X + B)) x (k k' : B -> prog A)
    (R1 : B -> B -> Prop) (R : A -> A -> Prop),
    (forall m x, m <= n -> sim m (f x) (f' x) (sumR eq R1)) ->
    (forall b b', R1 b b' -> sim n (k b) (k' b') R) ->
    sim n (Iter f x k) (Iter f' x k') R.
  Proof.
    intros A X B n f f' x k k' R1 R Hf Hk.
    assert (H : forall m x, m <= n -> sim m (Iter f x (fun b => Ret b)) (Iter f' x (fun b => Ret b)) R1).
    { clear x. induction m as [|m IH]; intros x Hm s s' HS; rewrite !run_Iter;
      (eapply both_bind with (R1 := R1);
       [eapply both_bind; [apply Hf; [exact Hm|exact HS]|]|
        intros a a' s1 s1' Ha HS1; cbn [fst snd]; rewrite !run_Ret; cbn; auto]);
      intros [x1|b] [x1'|b'] s1 s1' Ha HS1; cbn [sumR] in Ha; try contradiction; cbn [fst snd].
      - exact I.
      - cbn. auto.
      - subst x1'. apply IH; [lia|exact HS1].
      - cbn. auto. }
    intros s s' HS. rewrite !run_Iter.
    eapply both_bind with (R1 := R1).
    - eapply both_bind; [apply Hf; [lia|exact HS]|].
      intros [x1|b] [x1'|b'] s1 s1' Ha HS1; cbn [sumR] in Ha; try contradiction; cbn [fst snd].
      + subst x1'. destruct n as [|n']; [exact I|]. apply H; [lia|exact HS1].
      + cbn. auto.
    - intros. cbn [fst snd]. now apply Hk.
  Qed.

  (** * Primitives *)

  Lemma take_blanks : forall l, (forall t, In t l -> is_trivia (tk_kind t) = true -> blank t) ->
    Forall blank (take_trivia l).
  Proof.
    induction l as [|t l IH]; intros H; [constructor|]. cbn [take_trivia].
    destruct (is_trivia (tk_kind t)) eqn:E; [|constructor]. constructor; [apply H; [now left|exact E]|].
    apply IH. intros. apply H; [now right|assumption].
  Qed.

  Lemma snk_blanks : forall s s', srel s s' -> Forall blank (take_trivia (t_snk s)) /\ Forall blank (take_trivia (t_snk s')).
  Proof.
    intros s s' HS. destruct (sr_snk _ _ HS) as (p & E), (sr_snk' _ _ HS) as (p' & E').
    split; apply take_blanks; intros t Ht.
    - apply BT. rewrite E. apply in_app_iff. auto.
    - apply BT'. rewrite E'. apply in_app_iff. auto.
  Qed.

  Lemma gap_drop : forall U r, at_gap U r -> at_gap U (drop_trivia r).
  Proof.
    intros U r [(p & ->) _]. split; [|left; apply nf_drop].
    destruct (drop_suffix r) as (q & Eq). exists (p ++ q). rewrite <- app_assoc. now rewrite <- Eq.
  Qed.
  Lemma gap_next : forall U t r, at_gap U (t :: r) -> is_trivia (tk_kind t) = false -> at_gap U r.
  Proof.
    intros U t r [(p & ->) _] Ht. split.
    - exists (p ++ [t]). now rewrite <- app_assoc.
    - right. exists p, t. auto.
  Qed.

  Lemma srel_drop : forall s s', srel s s' ->
    srel (mkT (drop_trivia (t_rest s)) (t_snk s) (t_items s) (t_stack s) (t_nev s) (t_errs s))
         (mkT (drop_trivia (t_rest s')) (t_snk s') (t_items s') (t_stack s') (t_nev s') (t_errs s')).
  Proof.
    intros s s' []. constructor; cbn [t_rest t_snk t_items t_stack t_nev t_errs]; auto using sb_drop, gap_drop;
    now rewrite drop_idem.
  Qed.

  (** what look-ahead may depend on *)
  Definition lookr {B : Set} (f : list token -> B) (R : B -> B -> Prop) : Prop :=
    forall r r', same_but_blanks r r' -> nf r -> nf r' -> R (f r) (f r').

  Lemma sim_look : forall (B : Set) n (f : list token -> B) (R : B -> B -> Prop),
    lookr f R -> sim n (look f) (look f) R.
  Proof.
    intros B n f R Hf. eapply sim_op with (R1 := fun r r' => same_but_blanks r r' /\ nf r /\ nf r').
    - intros s s' HS. cbn. split; [|now apply srel_drop].
      split; [apply sb_drop, HS|]. split; apply nf_drop.
    - intros r r' (H1 & H2 & H3). apply sim_ret. now apply Hf.
  Qed.

  Lemma sim_dassert : forall n site (f : list token -> bool), lookr f eq ->
    sim n (prim (DAssert site f)) (prim (DAssert site f)) eq.
  Proof.
    intros n site f Hf. apply sim_prim. intros s s' HS. cbn [tstep]. destruct dbg.
    - rewrite <- (Hf (drop_trivia (t_rest s)) (drop_trivia (t_rest s'))) by (try apply nf_drop; apply sb_drop, HS).
      destruct (f (drop_trivia (t_rest s))); cbn; [|reflexivity]. split; [reflexivity|]. now apply srel_drop.
    - cbn. auto.
  Qed.

  Lemma sim_bump_as : forall n site as_, sim n (prim (BumpAs site as_)) (prim (BumpAs site as_)) same_tok.
  Proof.
    intros n site as_. apply sim_prim. intros s s' HS. cbn [tstep].
    rewrite (sr_sync _ _ HS), (sr_sync' _ _ HS). destruct (snk_blanks _ _ HS) as [B B'].
    pose proof (gap_drop _ _ (sr_gap _ _ HS)) as G. pose proof (gap_drop _ _ (sr_gap' _ _ HS)) as G'.
    destruct (sb_nf _ _ (sb_drop _ _ (sr_rest _ _ HS)) (nf_drop _) (nf_drop _))
      as [[E E']|(t & t' & q & q' & E & E' & Ht & [Sk St] & HR)]; rewrite E, E' in *; cbn [both]; [reflexivity|].
    split.
    - split; cbn; [|exact St]. destruct as_; [reflexivity|exact Sk].
    - assert (Hk : match as_ with Some k => k | None => tk_kind t' end = match as_ with Some k => k | None => tk_kind t end)
        by (destruct as_; auto). rewrite Hk.
      assert (Ht' : is_trivia (tk_kind t') = false) by congruence.
      pose proof (gap_next _ _ _ G Ht) as Gn. pose proof (gap_next _ _ _ G' Ht') as Gn'.
      destruct HS. constructor; cbn [t_rest t_snk t_items t_stack t_nev t_errs]; auto.
      + apply Gn.
      + apply Gn'.
      + apply Forall2_app; [assumption|]. constructor; [|constructor]. constructor; auto. cbn. now rewrite St.
  Qed.

  Lemma sim_trivia : forall n, sim n explicitly_consume_trivia explicitly_consume_trivia eq.
  Proof.
    intros n. apply sim_prim. intros s s' HS. cbn [tstep both]. split; [reflexivity|].
    destruct (snk_blanks _ _ HS) as [B B']. destruct HS.
    constructor; cbn [t_rest t_snk t_items t_stack t_nev t_errs]; auto.
    - now rewrite drop_idem.
    - now rewrite drop_idem.
    - destruct sr_snk0 as (p & ->). destruct (drop_suffix (t_snk s)) as (q & Eq). exists (p ++ q). rewrite <- app_assoc. now rewrite <- Eq.
    - destruct sr_snk'0 as (p & ->). destruct (drop_suffix (t_snk s')) as (q & Eq). exists (p ++ q). rewrite <- app_assoc. now rewrite <- Eq.
    - apply Forall2_app; [assumption|]. constructor; [|constructor]. now constructor.
  Qed.

  Lemma sim_add_error_t : forall n e, sim n (add_error_t e) (add_error_t e) eq.
  Proof.
    intros n e. apply sim_prim. intros s s' HS. cbn [tstep].
    destruct (sb_nf _ _ (sb_drop _ _ (sr_rest _ _ HS)) (nf_drop _) (nf_drop _))
      as [[E E']|(t & t' & q & q' & E & E' & Ht & [Sk St] & HR)]; pose proof (srel_drop _ _ HS) as HD; rewrite E, E' in *; cbn [error_here].
    - destruct (rev T) as [|x l] eqn:R.
      { apply (f_equal (@rev token)) in R. rewrite rev_involutive in R. contradiction. }
      destruct (rev T') as [|x' l'] eqn:R'.
      { apply (f_equal (@rev token)) in R'. rewrite rev_involutive in R'. contradiction. }
      cbn. split; [reflexivity|]. destruct HD. constructor; auto. apply Forall2_app; [assumption|].
      constructor; [|constructor]. split; reflexivity.
    - cbn. split; [reflexivity|]. destruct HD. constructor; auto. apply Forall2_app; [assumption|].
      constructor; [|constructor]. split; cbn; congruence.
  Qed.
  Lemma sim_add_error : forall n e, sim n (add_error e) (add_error e) eq.
  Proof. intros. apply sim_add_error_t. Qed.
  Lemma sim_add_error_at : forall n e t t', same_tok t t' -> sim n (add_error_at e t) (add_error_at e t') eq.
  Proof.
    intros n e t t' [Sk St]. apply sim_prim. intros s s' HS. cbn. split; [reflexivity|].
    destruct HS. constructor; auto. apply Forall2_app; [assumption|].
    constructor; [|constructor]. split; cbn; congruence.
  Qed.

  Lemma sim_start : forall n, sim n start start eq.
  Proof.
    intros n. apply sim_prim. intros s s' HS. cbn. split; [apply HS|]. destruct HS. constructor; cbn; auto.
    constructor; auto. split; auto.
  Qed.

  Lemma sim_complete : forall n m k, sim n (complete m k) (complete m k) eq.
  Proof.
    intros n m k. apply sim_prim. intros s s' HS. cbn [tstep]. destruct HS.
    destruct sr_stack0 as [|[x y] [x' y'] l l' [E F] H]; [reflexivity|]. cbn [fst snd] in *. subst x'.
    destruct (Nat.eqb x m); [|reflexivity]. cbn. split; [reflexivity|].
    constructor; cbn; auto. apply Forall2_app; [assumption|]. constructor; [|constructor]. constructor.
    cbn [bare]. now rewrite (irels_bare _ _ sr_items0).
  Qed.

  Lemma sim_precede : forall n c, sim n (precede c) (precede c) eq.
  Proof.
    intros n c. apply sim_prim. intros s s' HS. cbn [tstep].
    pose proof (split_irel c _ _ (sr_items _ _ HS)) as H.
    destruct (split_node c (t_items s)) as [[[a t] b]|], (split_node c (t_items s')) as [[[a' t'] b']|]; try contradiction; [|reflexivity].
    destruct H as (H1 & H2 & H3). cbn. split; [apply HS|]. destruct HS. constructor; cbn; auto.
    - constructor; [now constructor|now apply locks_irel].
    - constructor; auto. split; auto.
  Qed.

  Lemma sim_fail : forall (B : Set) n p (R : B -> B -> Prop), sim n (fail p) (fail p) R.
  Proof. intros B n p R s s' HS. unfold fail. rewrite !run_Op. reflexivity. Qed.

  (** * Look-ahead *)

  Lemma lookr_at : forall k, lookr (l_at k) eq.
  Proof.
    intros k r r' H Hn Hn'. destruct (sb_nf _ _ H Hn Hn') as [[-> ->]|(t & t' & q & q' & -> & -> & _ & [Sk _] & _)]; [reflexivity|].
    cbn. now rewrite Sk.
  Qed.
  Lemma lookr_kind : lookr l_kind eq.
  Proof.
    intros r r' H Hn Hn'. destruct (sb_nf _ _ H Hn Hn') as [[-> ->]|(t & t' & q & q' & -> & -> & _ & [Sk _] & _)]; [reflexivity|].
    cbn. now rewrite Sk.
  Qed.
  Lemma lookr_at_set : forall set, lookr (l_at_set set) eq.
  Proof.
    intros k r r' H Hn Hn'. destruct (sb_nf _ _ H Hn Hn') as [[-> ->]|(t & t' & q & q' & -> & -> & _ & [Sk _] & _)]; [reflexivity|].
    cbn. now rewrite Sk.
  Qed.
  Lemma lookr_at_end : lookr l_at_end eq.
  Proof.
    intros r r' H Hn Hn'. destruct (sb_nf _ _ H Hn Hn') as [[-> ->]|(t & t' & q & q' & -> & -> & _ & [Sk _] & _)]; reflexivity.
  Qed.
  Lemma l_follow_same : forall l l', Forall2 same_tok l l' -> forall set, l_follow set l = l_follow set l'.
  Proof.
    induction 1 as [|t t' l l' [Sk St] H IH]; intros [|[k c] set]; cbn [l_follow]; auto.
    rewrite Sk, St, IH. reflexivity.
  Qed.
  Lemma lookr_following_content : forall set, lookr (l_following_content set) eq.
  Proof.
    intros set r r' H Hn Hn'. pose proof (l_follow_same _ _ (sb_nontriv _ _ H) set) as E. unfold l_following_content.
    destruct (sb_nf _ _ H Hn Hn') as [[-> ->]|(t & t' & q & q' & -> & -> & _)]; [reflexivity|exact E].
  Qed.
  Lemma lookr_following : forall set, lookr (l_following set) eq.
  Proof. intros. apply lookr_following_content. Qed.
  Lemma lookr_next_kind : lookr l_next_kind eq.
  Proof.
    intros r r' H Hn Hn'. destruct (sb_nf _ _ H Hn Hn') as [[-> ->]|(t & t' & q & q' & -> & -> & _ & _ & HR)]; [reflexivity|].
    cbn [l_next_kind]. destruct (sb_nontriv _ _ HR) as [|x x' l l' [Sk _] _]; [reflexivity|]. cbn. now rewrite Sk.
  Qed.
  Lemma lookr_twig_tag : forall k, lookr (l_twig_tag k) eq.
  Proof.
    intros k r r' H Hn Hn'. unfold l_twig_tag. now rewrite (lookr_at_set _ r r'), (lookr_next_kind r r').
  Qed.
  Lemma lookr_termination_tag : lookr l_termination_tag eq.
  Proof.
    intros r r' H Hn Hn'. unfold l_termination_tag. now rewrite (lookr_at_set _ r r'), (lookr_next_kind r r').
  Qed.
  Lemma lookr_less_than_non_word : lookr l_less_than_non_word eq.
  Proof.
    intros r r' H Hn Hn'. unfold l_less_than_non_word. rewrite (lookr_at _ r r') by auto. f_equal.
    destruct (sb_nf _ _ H Hn Hn') as [[-> ->]|(t & t' & q & q' & -> & -> & _ & _ & HR)]; [reflexivity|].
    cbn [nth_error]. apply sb_head in HR. destruct q, q'; cbn in *; try discriminate; [reflexivity|].
    injection HR as ->. reflexivity.
  Qed.
  Lemma lookr_html_text_end : lookr l_html_text_end eq.
  Proof.
    intros r r' H Hn Hn'. unfold l_html_text_end.
    now rewrite !(lookr_at_set _ r r'), (lookr_less_than_non_word r r').
  Qed.
  Lemma lookr_orb : forall f g : list token -> bool, lookr f eq -> lookr g eq -> lookr (fun r => f r || g r) eq.
  Proof. intros f g Hf Hg r r' H Hn Hn'. now rewrite (Hf r r'), (Hg r r'). Qed.
  Lemma lookr_andb : forall f g : list token -> bool, lookr f eq -> lookr g eq -> lookr (fun r => f r && g r) eq.
  Proof. intros f g Hf Hg r r' H Hn Hn'. now rewrite (Hf r r'), (Hg r r'). Qed.
  Lemma lookr_negb : forall f : list token -> bool, lookr f eq -> lookr (fun r => negb (f r)) eq.
  Proof. intros f Hf r r' H Hn Hn'. now rewrite (Hf r r'). Qed.

  Definition opt_tok (o o' : option token) : Prop :=
    match o, o' with Some t, Some t' => same_tok t t' | None, None => True | _, _ => False end.
  Lemma lookr_peek : lookr (@hd_error token) opt_tok.
  Proof.
    intros r r' H Hn Hn'. destruct (sb_nf _ _ H Hn Hn') as [[-> ->]|(t & t' & q & q' & -> & -> & _ & S & _)]; [exact I|exact S].
  Qed.

  (** * Loops that stop when nothing is consumed *)

  Lemma sim_many : forall (X : Set) n (early early' : X -> prog (bool * X)) (child child' : X -> prog X) x,
    (forall m x, m <= n -> sim m (early x) (early' x) eq) ->
    (forall m x, m <= n -> sim m (child x) (child' x) eq) ->
    sim n (parse_many_st early child x) (parse_many_st early' child' x) eq.
  Proof.
    intros X n early early' child child' x He Hc. unfold parse_many_st.
    apply sim_iter with (R1 := eq); [|intros b b' <-; now apply sim_ret].
    clear x. intros m x Hm.
    set (RP := fun p p' => exists r r', p = length T - length r /\ p' = length T' - length r' /\
                 same_but_blanks r r' /\ at_gap T r /\ at_gap T' r').
    assert (HP : sim m get_pos get_pos RP).
    { apply sim_prim. intros s s' HS. cbn. split; [|exact HS]. exists (t_rest s), (t_rest s'). destruct HS. auto. }
    apply sim_bind with (R1 := RP); [exact HP|]. intros p p' (r & r' & -> & -> & H1 & H2 & H3).
    apply sim_bind with (R1 := eq); [apply sim_look, lookr_at|]. intros b b' <-. destruct b.
    { apply sim_bind with (R1 := same_tok); [apply sim_bump_as|]. intros. apply sim_ret. reflexivity. }
    apply sim_bind with (R1 := eq); [apply sim_look, lookr_at_end|]. intros b b' <-. destruct b.
    { apply sim_ret. reflexivity. }
    apply sim_bind with (R1 := eq); [now apply He|]. intros [b x1] ? <-. destruct b.
    { apply sim_ret. reflexivity. }
    apply sim_bind with (R1 := eq); [now apply Hc|]. intros x2 ? <-.
    apply sim_bind with (R1 := RP); [exact HP|]. intros p p' (q & q' & -> & -> & G1 & G2 & G3).
    rewrite (same_moves T T' q q' r r') by auto.
    destruct (Nat.eqb _ _); apply sim_ret; reflexivity.
  Qed.
End Sim.
