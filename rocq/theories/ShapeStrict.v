(** Trees of error-free parses, part 1: set-up, tactics and the parser methods. *)
From Coq Require Import NArith String Bool Arith Lia List.
Import ListNotations.
From Verif Require Import Text Kind Regex Lexer LexerProofs ParserApi GrammarExpr GrammarTags GrammarHtml
  Machine TreeMachine Simulation TreeSpec WpBase Total Schema Shape.
Local Notation length := List.length (only parsing).
Local Open Scope list_scope.
Local Open Scope prog_scope.
Local Open Scope cm_scope.

(** * Content models *)
Lemma sem_eps : sem Eps [].
Proof. reflexivity. Qed.
Lemma sem_one ss s : In s ss -> sem (One ss) [s].
Proof. intros H. now exists s. Qed.
Lemma sem_anytok k : sem AnyTok [Tok k].
Proof. now exists k. Qed.
Lemma sem_seq a b x y : sem a x -> sem b y -> sem (a >> b) (x ++ y).
Proof. intros H1 H2. now exists x, y. Qed.
Lemma sem_seq_cons a b x y : sem a [x] -> sem b y -> sem (a >> b) (x :: y).
Proof. intros H1 H2. now exists [x], y. Qed.
Lemma sem_seq_skip a b y : sem a [] -> sem b y -> sem (a >> b) y.
Proof. intros H1 H2. now exists [], y. Qed.
Lemma sem_seq_last a b x : sem a x -> sem b [] -> sem (a >> b) x.
Proof. intros H1 H2. exists x, []. now rewrite app_nil_r. Qed.
Lemma sem_alt_l a b x : sem a x -> sem (a <|> b) x.
Proof. now left. Qed.
Lemma sem_alt_r a b x : sem b x -> sem (a <|> b) x.
Proof. now right. Qed.
Lemma sem_opt a x : sem a x -> sem (opt a) x.
Proof. now right. Qed.
Lemma sem_opt_nil a : sem (opt a) [].
Proof. now left. Qed.
Lemma sem_many_nil a : sem (Many a) [].
Proof. constructor. Qed.
Lemma star_one (P : list sym -> Prop) x : P x -> star P x.
Proof. intros H. rewrite <- (app_nil_r x). constructor; [exact H|constructor]. Qed.
Lemma star_cat (P : list sym -> Prop) x y : star P x -> star P y -> star P (x ++ y).
Proof. induction 1 as [|a b Ha _ IH]; intros H2; [exact H2|]. rewrite <- app_assoc. constructor; auto. Qed.
Lemma sem_many_one a x : sem a x -> sem (Many a) x.
Proof. apply star_one. Qed.
Lemma sem_many_app a x y : sem (Many a) x -> sem (Many a) y -> sem (Many a) (x ++ y).
Proof. apply star_cat. Qed.
Lemma star_impl (P Q : list sym -> Prop) x : (forall y, P y -> Q y) -> star P x -> star Q x.
Proof. intros H. induction 1; constructor; auto. Qed.
Lemma sem_one_incl a b x : (forall s, In s a -> In s b) -> sem (One a) x -> sem (One b) x.
Proof. intros H (s & -> & Hs). exists s. auto. Qed.

Definition tok_sym (k : kind) : list sym := if junk k then [] else [Tok k].
Lemma tok_plain k : junk k = false -> tok_sym k = [Tok k].
Proof. unfold tok_sym. now intros ->. Qed.
Lemma tok_any k : sem (Many AnyTok) (tok_sym k).
Proof. unfold tok_sym. destruct (junk k); [constructor|]. apply sem_many_one, sem_anytok. Qed.
Lemma tok_in k ks : mem_kind k ks = true -> forallb (fun k => negb (junk k)) ks = true -> sem (tk ks) (tok_sym k).
Proof.
  intros H F. apply mem_kind_in in H. rewrite forallb_forall in F. specialize (F _ H). apply negb_true_iff in F.
  rewrite tok_plain by exact F. apply sem_one. now apply in_map.
Qed.

Lemma tok_any_alt k a : sem (Many (AnyTok <|> a)) (tok_sym k).
Proof. unfold tok_sym. destruct (junk k); [constructor|]. apply sem_many_one. left. apply sem_anytok. Qed.

Definition item_sym (i : item) : list sym :=
  match i with
  | ITok _ k _ => tok_sym k
  | ITriv _ => []
  | INode _ t | ILock t => symbol t
  end.
Definition ck (its : list item) : list sym := flat_map item_sym its.
Lemma ck_app a b : ck (a ++ b) = ck a ++ ck b.
Proof. apply flat_map_app. Qed.
Lemma ck_cons i b : ck (i :: b) = item_sym i ++ ck b.
Proof. reflexivity. Qed.
Lemma ck_nil : ck [] = [].
Proof. reflexivity. Qed.
Lemma ck_lock b : ck (map lock b) = ck b.
Proof. induction b as [|[| | |] b IH]; [reflexivity| | | |]; cbn [map lock]; rewrite !ck_cons, IH; reflexivity. Qed.

Lemma ck_content shape its : Forall (gooditem shape) its -> content (trees its) = ck its.
Proof.
  assert (L : forall l, Forall trivia_token l -> content (map leaf l) = []).
  { induction 1 as [|t l H _ IH]; [reflexivity|]. unfold content. cbn [map flat_map leaf symbol]. unfold junk. rewrite H. exact IH. }
  induction 1 as [|i its H _ IH]; [reflexivity|]. unfold trees in *. cbn [flat_map]. unfold content in *.
  rewrite flat_map_app, IH, ck_cons. f_equal. destruct i; cbn [gooditem item_trees item_sym] in *.
  - rewrite flat_map_app. rewrite (L _ H). cbn [flat_map app symbol]. apply app_nil_r.
  - apply (L _ H).
  - apply app_nil_r.
  - apply app_nil_r.
Qed.

(** one node of one of the kinds [ks] with marker [c] *)
Definition is1 (ks : list kind) (c : nat) (t : list item) : Prop :=
  exists k cs b, t = INode c (Node k cs) :: b /\ ck b = [] /\ In k ks.
Definition opt1 (ks : list kind) (a : option nat) (t : list item) : Prop :=
  match a with Some c => is1 ks c t | None => t = [] end.
Lemma is1_sem ks c t : is1 ks c t -> sem (nd ks) (ck t).
Proof.
  intros (k & cs & b & -> & Hb & Hk). rewrite ck_cons, Hb. cbn [item_sym symbol app]. apply sem_one. now apply in_map.
Qed.
Lemma opt1_sem ks a t : opt1 ks a t -> sem (opt (nd ks)) (ck t).
Proof. destruct a; cbn [opt1]; [intros H; apply sem_opt; now apply is1_sem in H|intros ->; apply sem_opt_nil]. Qed.
Lemma is1_incl ks ks' c t : (forall k, In k ks -> In k ks') -> is1 ks c t -> is1 ks' c t.
Proof. intros H (k & cs & b & -> & Hb & Hk). exists k, cs, b. auto. Qed.

(** exactly one node of one of the kinds [ks] with marker [c] *)
Definition just1 (ks : list kind) (c : nat) (t : list item) : Prop :=
  exists k cs, t = [INode c (Node k cs)] /\ In k ks.
Definition optj1 (ks : list kind) (a : option nat) (t : list item) : Prop :=
  match a with Some c => just1 ks c t | None => t = [] end.
Lemma just1_is1 ks c t : just1 ks c t -> is1 ks c t.
Proof. intros (k & cs & -> & Hk). exists k, cs, []. auto. Qed.
Lemma optj1_opt1 ks a t : optj1 ks a t -> opt1 ks a t.
Proof. destruct a; [apply just1_is1|auto]. Qed.

(** items without unknown characters *)
Definition known_item (i : item) : Prop :=
  match i with
  | ITok _ k _ => k <> TK_UNKNOWN
  | ITriv _ => True
  | INode _ t | ILock t => match t with Leaf k _ => k <> TK_UNKNOWN | Node _ _ => True end
  end.
Lemma known_trees shape its : Forall (gooditem shape) its -> Forall known_item its -> known (trees its).
Proof.
  intros G H s Hs. unfold trees in Hs. apply in_flat_map in Hs as (i & Hi & Hs). rewrite Forall_forall in G, H.
  specialize (G i Hi). specialize (H i Hi).
  assert (L : forall l, Forall trivia_token l -> ~ In (Leaf TK_UNKNOWN s) (map leaf l)).
  { intros l Hl X. apply in_map_iff in X as (t & X & Ht). rewrite Forall_forall in Hl. specialize (Hl t Ht).
    unfold trivia_token in Hl. unfold leaf in X. injection X as Ek _. now rewrite Ek in Hl. }
  destruct i as [tr k us|tr|m t|t]; cbn [item_trees gooditem known_item] in *.
  - apply in_app_iff in Hs as [Hs|[Hs|[]]]; [now apply (L tr)|]. injection Hs as Ek _. auto.
  - now apply (L tr).
  - destruct Hs as [->|[]]. now apply H.
  - destruct Hs as [->|[]]. now apply H.
Qed.
Lemma just1_known ks c t : just1 ks c t -> Forall known_item t.
Proof. intros (k & cs & -> & _). repeat constructor. Qed.
Lemma optj1_known ks a t : optj1 ks a t -> Forall known_item t.
Proof. destruct a; [apply just1_known|intros ->; constructor]. Qed.
Lemma known_lock t : Forall known_item t -> Forall known_item (map lock t).
Proof. induction 1 as [|[| | |] t H _ IH]; constructor; auto. Qed.

(** * Look-ahead *)
Lemma at_cons k tok ts : l_at k (tok :: ts) = true -> tk_kind tok = k.
Proof. apply kind_eqb_eq. Qed.
Lemma next_kind_drop tok ts k : l_next_kind (tok :: ts) = Some k -> exists u us, drop_trivia ts = u :: us /\ tk_kind u = k.
Proof.
  cbn [l_next_kind]. induction ts as [|u ts IH]; [discriminate|]. unfold nontriv in *. cbn [filter drop_trivia].
  destruct (is_trivia (tk_kind u)); cbn [negb]; [exact IH|]. cbn [l_kind]. intros [= <-]. eauto.
Qed.
Lemma twig_tag_cons kw tok ts : l_twig_tag kw (tok :: ts) = true ->
  mem_kind (tk_kind tok) TWIG_BLOCK_OPEN_SET = true /\
  exists u us, drop_trivia ts = u :: us /\ tk_kind u = kw.
Proof.
  unfold l_twig_tag. intros H. apply andb_true_iff in H as [H1 H2]. split; [exact H1|].
  destruct (l_next_kind (tok :: ts)) as [k|] eqn:E; [|discriminate]. apply kind_eqb_eq in H2. subst k.
  now apply next_kind_drop in E.
Qed.
Lemma follow_drop set k c ts : l_follow ((k, c) :: set) (nontriv ts) = true ->
  exists u us, drop_trivia ts = u :: us /\ tk_kind u = k /\
    match c with Some x => tk_text u = x | None => True end /\ l_follow set (nontriv us) = true.
Proof.
  induction ts as [|u ts IH]; [discriminate|]. unfold nontriv in *. cbn [filter drop_trivia].
  destruct (is_trivia (tk_kind u)); cbn [negb]; [exact IH|]. cbn [l_follow]. intros H.
  destruct (kind_eqb (tk_kind u) k) eqn:E; [|discriminate]. apply kind_eqb_eq in E. cbn [andb] in H.
  destruct c as [x|].
  - destruct (text_eqb x (tk_text u)) eqn:Ex; [|discriminate]. apply text_eqb_eq in Ex. exists u, ts. auto.
  - exists u, ts. auto.
Qed.

Lemma following2 a b r : drop_trivia r = r -> l_following [a; b] r = true ->
  exists u us v vs, r = u :: us /\ tk_kind u = a /\ drop_trivia us = v :: vs /\ tk_kind v = b.
Proof.
  intros Hn H. unfold l_following, l_following_content in H. destruct r as [|t r]; [discriminate|]. cbn [map] in H.
  apply follow_drop in H as (u & us & Hu & Ku & _ & H). apply follow_drop in H as (v & vs & Hv & Kv & _ & _).
  rewrite Hn in Hu. exists u, us, v, vs. auto.
Qed.

(** * Rules in the strict setting *)
(** In a release build the parser takes any token for the arrow after the closing parenthesis
    of [(a, b)]. *)
Definition wf (dbg : bool) (k : kind) (cs : list tree) : Prop :=
  well_formed k cs \/
  (dbg = false /\ k = TWIG_ARROW_FUNCTION /\ sem (nd [TWIG_ARGUMENTS] >> opt AnyTok >> expr) (content cs)).
Notation SJ dbg T := (J true dbg T (wf dbg)).

Section Strict.
  Context (dbg : bool) (T : list token).
  Notation J := (SJ dbg T).
  Notation good := (gooditem (wf dbg)).

  Lemma S_look (A B : Set) n r segs t (f : list token -> A) (g : A -> prog B) (R : res_spec B) :
    (forall r', drop_trivia r = r' -> drop_trivia r' = r' -> J n r' segs t (g (f r')) R) ->
    J n r segs t (bind (look f) g) R.
  Proof. intros H. apply J_look. apply H; [reflexivity|apply drop_idem]. Qed.
  Lemma S_look_nf (A B : Set) n r segs t (f : list token -> A) (g : A -> prog B) (R : res_spec B) :
    drop_trivia r = r -> J n r segs t (g (f r)) R -> J n r segs t (bind (look f) g) R.
  Proof. intros Hn H. apply J_look. now rewrite Hn. Qed.
  Lemma S_dassert_nf (A : Set) n r segs t f (g : unit -> prog A) (R : res_spec A) :
    drop_trivia r = r -> J n r segs t (g tt) R -> J n r segs t (bind (debug_assert f) g) R.
  Proof. intros Hn H. apply J_dassert. rewrite Hn. intros r' [-> | ->]; exact H. Qed.
  Lemma S_error_t (A : Set) n r segs t e (g : unit -> prog A) (R : res_spec A) : J n r segs t (bind (add_error_t e) g) R.
  Proof. apply J_add_error_t. discriminate. Qed.
  Lemma S_error (A : Set) n r segs t e (g : unit -> prog A) (R : res_spec A) : J n r segs t (bind (add_error e) g) R.
  Proof. apply J_add_error. discriminate. Qed.
  Lemma S_error_at (A : Set) n r segs t e tok (g : unit -> prog A) (R : res_spec A) :
    J n r segs t (bind (add_error_at e tok) g) R.
  Proof. apply J_add_error_at. discriminate. Qed.

  (** Completing a node. *)
  Lemma S_complete_agree (A : Set) n r segs m saved t k M (g : nat -> prog A) (R : res_spec A) :
    schema k = Some M -> sem M (ck t) -> (Forall good t -> agrees k (trees t)) ->
    J n r segs (saved ++ [INode m (Node k (trees t))]) (g m) R ->
    J n r ((m, saved) :: segs) t (bind (complete m k) g) R.
  Proof.
    intros Hk HM Ha H. apply J_complete; [|exact H]. intros G. left. split; [|auto]. unfold conforms. rewrite Hk.
    now rewrite (ck_content _ _ G).
  Qed.
  Lemma S_complete_known (A : Set) n r segs m saved t k M (g : nat -> prog A) (R : res_spec A) :
    schema k = Some M -> agrees k = known -> sem M (ck t) -> Forall known_item t ->
    (forall cs, J n r segs (saved ++ [INode m (Node k cs)]) (g m) R) ->
    J n r ((m, saved) :: segs) t (bind (complete m k) g) R.
  Proof. intros Hk Ha HM Ht H. eapply S_complete_agree; eauto. intros G. rewrite Ha. eapply known_trees; eauto. Qed.
  Lemma S_complete (A : Set) n r segs m saved t k M (g : nat -> prog A) (R : res_spec A) :
    schema k = Some M -> agrees k = (fun _ => True) -> sem M (ck t) ->
    (forall cs, J n r segs (saved ++ [INode m (Node k cs)]) (g m) R) ->
    J n r ((m, saved) :: segs) t (bind (complete m k) g) R.
  Proof. intros Hk Ha HM H. eapply S_complete_agree; eauto. intros _. now rewrite Ha. Qed.

  (** Preceding a node. *)
  Lemma S_precede (A : Set) n r segs o ks c t1 rest (g : nat -> prog A) (R : res_spec A) :
    is1 ks c t1 ->
    (forall m t1', sem (nd ks) (ck t1') -> J n r ((m, o) :: segs) (t1' ++ map lock rest) (g m) R) ->
    J n r segs (o ++ t1 ++ rest) (bind (precede c) g) R.
  Proof.
    intros (k & cs & b & -> & Hb & Hk) H. cbn [app]. apply J_precede. intros m.
    specialize (H m (ILock (Node k cs) :: map lock b)). rewrite map_app. apply H.
    rewrite ck_cons, ck_lock, Hb. apply sem_one. now apply in_map.
  Qed.
  Lemma S_precede0 (A : Set) n r segs ks c t (g : nat -> prog A) (R : res_spec A) :
    is1 ks c t ->
    (forall m t', sem (nd ks) (ck t') -> J n r ((m, []) :: segs) t' (g m) R) ->
    J n r segs t (bind (precede c) g) R.
  Proof.
    intros H Hg. rewrite <- (app_nil_r t). apply (S_precede _ n r segs [] ks c t []); [exact H|].
    intros m t1 Ht. cbn [map]. rewrite app_nil_r. auto.
  Qed.
  Lemma S_precede1 (A : Set) n r segs ks c t rest (g : nat -> prog A) (R : res_spec A) :
    is1 ks c t ->
    (forall m t', sem (nd ks) (ck t') -> J n r ((m, []) :: segs) (t' ++ map lock rest) (g m) R) ->
    J n r segs (t ++ rest) (bind (precede c) g) R.
  Proof. apply (S_precede _ n r segs []). Qed.
  (** A function that works on the last items. *)
  Lemma S_under (A B : Set) n r segs o t1 (p : prog A) (g : A -> prog B) (R1 : res_spec A) (R : res_spec B) :
    J n r [] t1 p R1 ->
    (forall a r1 t1', Forall good t1' -> R1 a r1 t1' -> J n r1 segs (o ++ t1') (g a) R) ->
    J n r segs (o ++ t1) (bind p g) R.
  Proof.
    intros H Hg. apply J_good. intros Gt. eapply J_bind with
      (R1 := fun a r' t' => exists t1', t' = o ++ t1' /\ R1 a r' t1').
    - intros Ht Hs its st. apply Forall_app in Ht as [Ho Ht]. specialize (H Ht Hs (its ++ o) st). cbn [cur stk] in *.
      rewrite <- app_assoc in H. eapply wp_mono; [exact H|]. cbn. intros a r' i s (t' & -> & -> & G & Ha).
      exists (o ++ t'). rewrite app_assoc. repeat split; auto; [|eauto]. apply Forall_app. auto.
    - cbn beta. intros a r1 t' G (t1' & -> & Ha). apply Forall_app in G as [_ G]. auto.
  Qed.

  (** * Parser methods *)
  Lemma S_display (A : Set) n r segs t k (g : text -> prog A) (R : res_spec A) :
    (forall x, J n r segs t (g x) R) -> J n r segs t (bind (display k) g) R.
  Proof. intros H. unfold display. destruct (kind_display k); [apply H|apply J_fail]. Qed.
  Lemma S_display_or : forall ks n r, J n r [] [] (display_or ks) (fun _ _ t => t = []).
  Proof.
    induction ks as [|k ks IH]; intros n r; [now apply J_ret|]. destruct ks as [|k' ks].
    - apply J_tail. apply S_display. intros x. now apply J_ret.
    - change (display_or (k :: k' :: ks)) with
        (d <- display k ;; r <- display_or (k' :: ks) ;; Ret (d ++ txt " or " ++ r)%list).
      apply S_display. intros x. eapply J_app; [apply IH|]. cbn beta. intros a r1 t1 _ ->. now apply J_ret.
  Qed.

  Lemma S_expect (A : Set) n r segs t k set (g : option token -> prog A) (R : res_spec A) :
    (forall tok ts tr, drop_trivia r = tok :: ts -> tk_kind tok = k ->
       J n ts segs (t ++ [ITok tr k [tok]]) (g (Some tok)) R) ->
    J n r segs t (bind (expect k set) g) R.
  Proof.
    intros H. unfold expect, at_. apply J_assoc. apply S_look. intros r' Hr Hn.
    destruct (l_at k r') eqn:E.
    - apply J_assoc. apply J_bump. intros tok ts tr Hd. rewrite Hn in Hd. rewrite Hd in E. apply at_cons in E. rewrite E.
      cbn [bind]. apply H; [congruence|exact E].
    - apply J_assoc. apply S_display. intros x. apply J_assoc. apply S_error_t.
  Qed.
  Lemma S_expect_any (A : Set) n r segs t ks set (g : option token -> prog A) (R : res_spec A) :
    (forall tok ts tr, drop_trivia r = tok :: ts -> mem_kind (tk_kind tok) ks = true ->
       J n ts segs (t ++ [ITok tr (tk_kind tok) [tok]]) (g (Some tok)) R) ->
    J n r segs t (bind (expect_any ks set) g) R.
  Proof.
    intros H. unfold expect_any, at_set. apply J_assoc. apply S_look. intros r' Hr Hn.
    destruct (l_at_set ks r') eqn:E.
    - apply J_assoc. apply J_bump. intros tok ts tr Hd. rewrite Hn in Hd. rewrite Hd in E.
      cbn [bind]. apply H; [congruence|exact E].
    - apply J_assoc. eapply J_app; [apply S_display_or|]. cbn beta. intros x r1 t1 _ ->. apply J_assoc. apply S_error_t.
  Qed.
End Strict.

(** * Proof search for content models *)
Lemma sem_assoc a b c l : sem (a >> (b >> c)) l -> sem ((a >> b) >> c) l.
Proof. intros (x & y & -> & Hx & (y1 & y2 & -> & H1 & H2)). exists (x ++ y1), y2. rewrite app_assoc. repeat split; auto. now exists x, y1. Qed.
Lemma sem_dist_l a b c l : sem (a >> c) l -> sem ((a <|> b) >> c) l.
Proof. intros (x & y & -> & Hx & Hy). exists x, y. repeat split; auto. now left. Qed.
Lemma sem_dist_r a b c l : sem (b >> c) l -> sem ((a <|> b) >> c) l.
Proof. intros (x & y & -> & Hx & Hy). exists x, y. repeat split; auto. now right. Qed.
Lemma sem_eps_l c l : sem c l -> sem (Eps >> c) l.
Proof. intros H. now exists [], l. Qed.
Lemma sem_nd_mem k ks : mem_kind k ks = true -> sem (nd ks) [Nd k].
Proof. intros H. apply sem_one, in_map. now apply mem_kind_in. Qed.
Lemma sem_tk_mem k ks : mem_kind k ks = true -> sem (tk ks) [Tok k].
Proof. intros H. apply sem_one, in_map. now apply mem_kind_in. Qed.
Lemma sem_nd_incl ks' ks l : sem (nd ks') l -> forallb (fun k => mem_kind k ks) ks' = true -> sem (nd ks) l.
Proof.
  intros (s & -> & Hs) F. apply in_map_iff in Hs as (k & <- & Hk). rewrite forallb_forall in F. apply sem_nd_mem. auto.
Qed.
Lemma sem_tk_incl ks' ks l : sem (tk ks') l -> forallb (fun k => mem_kind k ks) ks' = true -> sem (tk ks) l.
Proof.
  intros (s & -> & Hs) F. apply in_map_iff in Hs as (k & <- & Hk). rewrite forallb_forall in F. apply sem_tk_mem. auto.
Qed.

Lemma is1_junk ks c t x : is1 ks c t -> ck x = [] -> is1 ks c (t ++ x).
Proof. intros (k & cs & b & -> & Hb & Hk) Hx. exists k, cs, (b ++ x). rewrite ck_app, Hb, Hx. auto. Qed.
Lemma is1_node k ks c cs : mem_kind k ks = true -> is1 ks c [INode c (Node k cs)].
Proof. intros H. exists k, cs, []. repeat split. now apply mem_kind_in. Qed.
Lemma is1_self k c cs : is1 [k] c [INode c (Node k cs)].
Proof. exists k, cs, []. repeat split. now left. Qed.
Lemma is1_sub ks ks' c t : is1 ks c t -> forallb (fun k => mem_kind k ks') ks = true -> is1 ks' c t.
Proof. intros H F. eapply is1_incl; [|exact H]. rewrite forallb_forall in F. intros k Hk. apply mem_kind_in. auto. Qed.

Ltac cms := cbv delta [tag simple_tag wrapped include_options directive expr name string_ comma sep commas list1
  between_quotes block_open block_close var_open var_close comment_open comment_close opt] beta.
Ltac cks :=
  repeat (first [rewrite ck_app | rewrite ck_cons | rewrite ck_nil | rewrite ck_lock | rewrite app_nil_r
         | rewrite <- app_assoc | rewrite tok_plain by reflexivity
         | match goal with H : ck ?b = [] |- context [ck ?b] => rewrite H end ];
         cbn [item_sym symbol app map lock]);
  cbn [item_sym symbol app].

Ltac one := first
  [ eassumption
  | apply sem_nd_mem; reflexivity
  | apply sem_tk_mem; reflexivity
  | eapply sem_nd_incl; [eassumption|reflexivity]
  | eapply sem_tk_incl; [eassumption|reflexivity]
  | apply tok_in; [eassumption|reflexivity]
  | eapply sem_tk_incl; [apply tok_in; [eassumption|reflexivity]|reflexivity] ].
Ltac sm1 :=
  lazymatch goal with
  | |- sem Eps [] => reflexivity
  | |- sem (Seq (Seq _ _) _) (_ ++ _) => first [apply sem_seq; [eassumption|sm1] | apply sem_assoc; sm1]
  | |- sem (Seq (Seq _ _) _) _ => apply sem_assoc; sm1
  | |- sem (Seq (Alt _ _) _) (_ ++ _) =>
    first [apply sem_seq; [eassumption|sm1] | apply sem_dist_r; sm1 | apply sem_dist_l; sm1]
  | |- sem (Seq (Alt _ _) _) _ => first [apply sem_dist_r; sm1 | apply sem_dist_l; sm1]
  | |- sem (Seq Eps _) _ => apply sem_eps_l; sm1
  | |- sem (Seq (Many _) _) (_ ++ _) => first [apply sem_seq; [sm1|sm1] | apply sem_seq_skip; [apply sem_many_nil|sm1]]
  | |- sem (Seq (Many _) _) (_ :: _) => apply sem_seq_skip; [apply sem_many_nil|sm1]
  | |- sem (Seq (Many _) _) _ => first [apply sem_seq_last; [sm1|sm1] | apply sem_seq_skip; [apply sem_many_nil|sm1]]
  | |- sem (Seq _ _) (_ ++ _) => apply sem_seq; [one|sm1]
  | |- sem (Seq _ _) (_ :: _) => apply sem_seq_cons; [one|sm1]
  | |- sem (Seq _ _) [] => fail
  | |- sem (Seq _ _) _ => apply sem_seq_last; [one|sm1]
  | |- sem (Alt _ _) _ => first [eassumption | apply sem_alt_r; sm1 | apply sem_alt_l; sm1]
  | |- sem (Many _) [] => apply sem_many_nil
  | |- sem (Many AnyTok) (tok_sym _) => apply tok_any
  | |- sem (Many (AnyTok <|> _)) (tok_sym _) => apply tok_any_alt
  | |- sem (Many _) (_ ++ _) => apply sem_many_app; [sm1|sm1]
  | |- sem (Many _) [_] => apply sem_many_one; sm1
  | |- sem (Many ?a) (?x :: ?y) => first [apply (sem_many_app a [x] y); [sm1|sm1] | apply sem_many_one; sm1]
  | |- sem (Many _) _ => first [eassumption | apply sem_many_one; sm1]
  | |- sem AnyTok _ => first [apply sem_anytok | eassumption]
  | |- sem _ _ => one
  end.
Ltac sm := cks; first [eassumption | cms; sm1].

(** * Stepping through a program *)
Ltac pos_at E := first [apply at_cons in E].
Ltac use_tok :=
  repeat match goal with
  | E : l_at ?k (?tok :: _) = true |- _ => apply at_cons in E; try rewrite E
  | E : l_at_set _ (_ :: _) = true |- _ => cbn [l_at_set] in E
  | E : l_at _ (_ :: _) = false |- _ => clear E
  | E : l_at_set _ (_ :: _) = false |- _ => clear E
  end.
Ltac norm := cbv beta iota zeta; cbn [fst snd]; repeat lazymatch goal with
  | |- Shape.J _ _ _ _ _ _ _ _ (bind (bind _ _) _) _ => apply J_assoc; cbv beta iota zeta end.
Ltac step :=
  norm;
  lazymatch goal with
  | |- Shape.J true _ _ _ _ ?r _ _ ?p _ =>
    lazymatch p with
    | bind (Ret _) _ => cbn [bind]
    | bind (if ?b then _ else _) _ => destruct b eqn:?
    | (if ?b then _ else _) => destruct b eqn:?
    | bind (when _ _) _ => unfold when
    | bind (add_error _) _ => apply S_error
    | bind (add_error_t _) _ => apply S_error_t
    | bind (add_error_at _ _) _ => apply S_error_at
    | bind start _ => apply J_start; let m := fresh "m" in intros m
    | bind bump _ =>
      apply J_bump; let tok := fresh "tok" in let ts := fresh "ts" in let tr := fresh "tr" in let Hd := fresh "Hd" in
      intros tok ts tr Hd;
      try (match goal with Hn : drop_trivia ?r = ?r |- _ => 
             match type of Hd with drop_trivia r = _ => rewrite Hn in Hd; clear Hn; first [subst r | injection Hd as <- <-] end end);
      use_tok
    | bind (bump_as _) _ =>
      apply J_bump_as; let tok := fresh "tok" in let ts := fresh "ts" in let tr := fresh "tr" in let Hd := fresh "Hd" in
      intros tok ts tr Hd
    | bind explicitly_consume_trivia _ => apply J_trivia; let tr := fresh "tr" in intros tr
    | bind (expect _ _) _ =>
      apply S_expect; let tok := fresh "tok" in let ts := fresh "ts" in let tr := fresh "tr" in let Hd := fresh "Hd" in
      let Hk := fresh "Hk" in intros tok ts tr Hd Hk
    | bind (expect_any _ _) _ =>
      apply S_expect_any; let tok := fresh "tok" in let ts := fresh "ts" in let tr := fresh "tr" in let Hd := fresh "Hd" in
      let Hk := fresh "Hk" in intros tok ts tr Hd Hk
    | bind (debug_assert _) _ => apply S_dassert_nf; [assumption|]
    | bind (complete _ _) _ =>
      eapply S_complete; [reflexivity|reflexivity|try solve [sm]|let cs := fresh "cs" in intros cs]
    | bind (fail _) _ => apply J_fail
    | bind (match ?x with _ => _ end) _ => fail "match"
    | bind _ _ =>
      first [ apply S_look_nf; [assumption|]
            | apply S_look; let r' := fresh "r" in let H := fresh "Hn" in intros r' _ H ]
    | complete _ _ => apply J_tail
    | expect _ _ => apply J_tail
    end
  end; cbv beta iota zeta; cbn [fst snd].
Ltac steps := repeat step; norm.
(** Calling a function with a known specification. *)
Ltac call L := steps; norm;
  eapply J_app; [eapply L; solve [eassumption|lia|reflexivity|auto] |];
  cbv beta; let r := fresh "r" in let t := fresh "t" in let H := fresh "H" in intros ? r t _ H.
Ltac prec := norm;
  eapply S_precede0; [first [eassumption | apply is1_self]|];
  let m := fresh "m" in let t := fresh "t" in let H := fresh "H" in intros m t H.
Ltac prec1 H1 := cbn [app]; repeat rewrite <- app_assoc;
  eapply S_precede1; [exact H1|]; let m := fresh "m" in let t := fresh "t" in let H := fresh "H" in intros m t H.
Ltac opts a H := destruct a as [?c|]; cbn [opt1] in H; [apply is1_sem in H | subst].
Tactic Notation "many" constr(Inv) := norm; try unfold parse_many;
  apply J_many with (I := fun _ _ t => sem Inv (ck t)) (R := fun _ _ t => sem Inv (ck t));
  [ apply sem_many_nil
  | let H := fresh "H" in intros _ ? ? ? ? ? H _ _; sm
  | auto
  | let r := fresh "r" in let t := fresh "t" in let Hm := fresh "Hm" in let HI := fresh "HI" in
    let r0 := fresh "r" in let Hn := fresh "Hn" in
    intros ? [] r0 t Hm _ HI _ _; pose proof (drop_idem r0) as Hn; revert HI Hn; generalize (drop_trivia r0); clear r0;
    intros r HI Hn ].
Ltac fin := repeat (rewrite ?app_nil_r; cbn [app]);
  first [ eexists _, _, _; split; [reflexivity|split; [reflexivity|cbn; tauto]] ].

(** Things separated by commas, up to a closing token. *)
Section Commas.
  Context (dbg : bool) (T : list token).
  Notation J := (SJ dbg T).
  Lemma S_commas n r ks (close : list token -> bool) (p : prog (option nat)) :
    (forall tok ts, tk_kind tok = TK_UNKNOWN -> close (tok :: ts) = false) ->
    (forall m r, m <= n -> J m r [] [] p (fun a _ t => opt1 ks a t)) ->
    J n r [] [] (parse_many (look close)
        (p ;; If at_ TK_COMMA Then bump ;; Ret tt Else If look close Then Ret tt Else add_error ","))
      (fun _ _ t => sem (commas (nd ks)) (ck t)).
  Proof.
    intros Hc Hp. unfold parse_many. apply J_many with (I := fun _ r t =>
      sem (sep (nd ks)) (ck t) \/ (sem (sep (nd ks) >> nd ks) (ck t) /\ close (drop_trivia r) = true)).
    - left. apply sem_many_nil.
    - intros _ r1 t1 tok ts tr [H|[H E]] Hd Hk.
      + left. rewrite ck_app. cbn [ck flat_map item_sym tok_sym]. rewrite app_nil_r. exact H.
      + rewrite Hd, (Hc tok ts Hk) in E. discriminate.
    - intros _ r1 _ t1 [H|[H _]].
      + apply sem_seq_last; [exact H|apply sem_opt_nil].
      + destruct H as (x & y & E & Hx & Hy). rewrite E. apply sem_seq; [exact Hx|]. now apply sem_opt.
    - intros m [] r1 t1 Hm G HI _ _. pose proof (drop_idem r1) as Hn. revert HI Hn. generalize (drop_trivia r1).
      intros r2 HI Hn. steps.
      + apply J_ret. destruct HI as [H|[H _]].
        * apply sem_seq_last; [exact H|apply sem_opt_nil].
        * destruct H as (x & y & E & Hx & Hy). rewrite E. apply sem_seq; [exact Hx|]. now apply sem_opt.
      + destruct HI as [HI|[_ HI]]; [|congruence]. norm. eapply J_app; [apply Hp; lia|]. cbv beta. intros a r3 t3 _ H3.
        norm; steps.
        * apply opt1_sem in H3. apply J_ret. left. cks. apply sem_many_app; [exact HI|].
          apply sem_many_one. apply sem_seq; [exact H3|]. apply sem_tk_mem. reflexivity.
        * apply J_ret. destruct a as [c|]; cbn [opt1] in H3.
          -- right. apply is1_sem in H3. cks. split; [|now rewrite Hn0]. apply sem_seq; assumption.
          -- subst t3. left. cks. exact HI.
  Qed.
End Commas.

(** What the recursive entry points return. *)
Definition Rc (c : call) : res_spec (option nat) := fun a _ t =>
  match c with
  | CExpr _ => optj1 [TWIG_EXPRESSION] a t
  | CChild PFAny => opt1 elements a t
  | CChild PFAttr => opt1 (HTML_ATTRIBUTE :: twig_statements) a t
  | CChild PFDouble | CChild PFSingle => sem (Many (AnyTok <|> nd twig_statements)) (ck t)
  | CChild PFRawInner => sem (Many (nd [HTML_RAW_TEXT])) (ck t)
  end.
