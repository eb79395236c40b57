(** Paths of first and of last children, and the token after a token: for the collisions of C23. *)
From Coq Require Import NArith String Bool Arith Lia Permutation List.
Import ListNotations.
From Verif Require Import Text Kind Regex Lexer LexerProofs ParserApi Machine TreeSpec.
From Verif Require PropFits Schema PropShape PropSkel PropLexer PropParser PropLines PropIndent PropFound3 PropEndings PropKeep Settled.
From Verif Require Import Red Typed Rule Naming Rules Check Process RedFacts WalkSpec PropProcess PropRun PropTree PropOff Found FoundRun PropFound PropFound5 Collide PropIgnored.
Local Notation length := List.length (only parsing).
Local Open Scope list_scope.

(** * Content models: which nodes can be first, last or side by side *)
Fixpoint empty (m : Schema.cm) : bool :=
  match m with
  | Schema.Eps | Schema.Many _ => true
  | Schema.One _ | Schema.AnyTok => false
  | Schema.Seq a b => empty a && empty b
  | Schema.Alt a b => empty a || empty b
  end.
Definition node_kinds (l : list Schema.sym) : list kind := flat_map (fun s => match s with Schema.Nd k => [k] | Schema.Tok _ => [] end) l.
Fixpoint firsts (m : Schema.cm) : list kind :=
  match m with
  | Schema.Eps | Schema.AnyTok => []
  | Schema.One l => node_kinds l
  | Schema.Seq a b => firsts a ++ (if empty a then firsts b else [])
  | Schema.Alt a b => firsts a ++ firsts b
  | Schema.Many a => firsts a
  end.
Fixpoint lasts (m : Schema.cm) : list kind :=
  match m with
  | Schema.Eps | Schema.AnyTok => []
  | Schema.One l => node_kinds l
  | Schema.Seq a b => lasts b ++ (if empty b then lasts a else [])
  | Schema.Alt a b => lasts a ++ lasts b
  | Schema.Many a => lasts a
  end.
Fixpoint pairs (m : Schema.cm) : list (kind * kind) :=
  match m with
  | Schema.Eps | Schema.AnyTok | Schema.One _ => []
  | Schema.Seq a b => pairs a ++ pairs b ++ list_prod (lasts a) (firsts b)
  | Schema.Alt a b => pairs a ++ pairs b
  | Schema.Many a => pairs a ++ list_prod (lasts a) (firsts a)
  end.
Lemma empty_sound : forall m, Schema.sem m [] -> empty m = true.
Proof.
  induction m as [|ss| |a IHa b IHb|a IHa b IHb|a IHa]; cbn [Schema.sem empty]; auto.
  - intros (s & X & _). discriminate X.
  - intros (k & X). discriminate X.
  - intros (x & y & E & Hx & Hy). symmetry in E. apply app_eq_nil in E as [-> ->]. now rewrite IHa, IHb.
  - intros [H|H]; [now rewrite IHa|]. rewrite IHb by exact H. apply orb_true_r.
Qed.
Lemma firsts_sound k : forall m l, Schema.sem m (Schema.Nd k :: l) -> In k (firsts m).
Proof.
  induction m as [|ss| |a IHa b IHb|a IHa b IHb|a IHa]; intros l; cbn [Schema.sem firsts].
  - discriminate.
  - intros (s & E & Hs). injection E as <- ->. unfold node_kinds. apply in_flat_map. exists (Schema.Nd k). split; [exact Hs|now left].
  - intros (k' & E). discriminate E.
  - intros (x & y & E & Hx & Hy). apply in_or_app. destruct x as [|s x].
    + right. rewrite (empty_sound a Hx). cbn [app] in E. subst y. eauto.
    + left. injection E as <- _. eauto.
  - intros [H|H]; apply in_or_app; eauto.
  - intros H. remember (Schema.Nd k :: l) as L eqn:E. revert l E. induction H as [|x y Hx _ IH]; intros l E; [discriminate E|].
    destruct x as [|s x]; [exact (IH l E)|]. injection E as -> _. eauto.
Qed.
Lemma lasts_sound k : forall m l, Schema.sem m (l ++ [Schema.Nd k]) -> In k (lasts m).
Proof.
  assert (S : forall (x y l : list Schema.sym) s, l ++ [s] = x ++ y -> (y = [] /\ x = l ++ [s]) \/ exists y', y = y' ++ [s]).
  { intros x y l s E. destruct (rev y) as [|z r] eqn:R.
    - left. apply (f_equal (@rev _)) in R. rewrite rev_involutive in R. cbn in R. subst y. rewrite app_nil_r in E. auto.
    - right. apply (f_equal (@rev _)) in R. rewrite rev_involutive in R. cbn in R. subst y. rewrite app_assoc in E. apply app_inj_tail in E as [_ ->]. eauto. }
  induction m as [|ss| |a IHa b IHb|a IHa b IHb|a IHa]; intros l; cbn [Schema.sem lasts].
  - intros E. destruct l; discriminate E.
  - intros (s & E & Hs). change [s] with ([] ++ [s]) in E. apply app_inj_tail in E as [_ <-]. unfold node_kinds. apply in_flat_map. exists (Schema.Nd k). split; [exact Hs|now left].
  - intros (k' & E). change [Schema.Tok k'] with ([] ++ [Schema.Tok k']) in E. apply app_inj_tail in E as [_ E]. discriminate E.
  - intros (x & y & E & Hx & Hy). apply in_or_app. apply S in E as [[-> ->]|(y' & ->)].
    + right. rewrite (empty_sound b Hy). eauto.
    + left. eauto.
  - intros [H|H]; apply in_or_app; eauto.
  - intros H. remember (l ++ [Schema.Nd k]) as L eqn:E. revert l E. induction H as [|x y Hx _ IH]; intros l E; [destruct l; discriminate E|].
    symmetry in E. apply S in E as [[-> ->]|(y' & ->)]; eauto.
Qed.
Lemma pairs_sound k k' : forall m u v, Schema.sem m (u ++ Schema.Nd k :: Schema.Nd k' :: v) -> In (k, k') (pairs m).
Proof.
  assert (S : forall (x y u v : list Schema.sym) s s', u ++ s :: s' :: v = x ++ y ->
    (exists v', x = u ++ s :: s' :: v') \/ (x = u ++ [s] /\ y = s' :: v) \/ (exists u', y = u' ++ s :: s' :: v)).
  { intros x y. induction x as [|z x IH]; intros u v s s' E; [right; right; exists u; now rewrite E|].
    destruct u as [|w u]; cbn [app] in E.
    - injection E as <- E. destruct x as [|z' x]; cbn [app] in E.
      + right. left. auto.
      + injection E as <- E. left. exists x. reflexivity.
    - injection E as <- E. destruct (IH u v s s' E) as [(v' & ->)|[[-> ->]|(u' & ->)]]; [left; exists v'; reflexivity|right; left; auto|right; right; eauto]. }
  induction m as [|ss| |a IHa b IHb|a IHa b IHb|a IHa]; intros u v; cbn [Schema.sem pairs].
  - intros E. destruct u; discriminate E.
  - intros (s & E & Hs). destruct u as [|? [|? ?]]; discriminate E.
  - intros (k0 & E). destruct u as [|? [|? ?]]; discriminate E.
  - intros (x & y & E & Hx & Hy). apply in_or_app. apply S in E as [(v' & ->)|[[-> ->]|(u' & ->)]]; [eauto| |]; right; apply in_or_app; [right|left; eauto].
    apply in_prod; [eapply lasts_sound; eauto|eapply firsts_sound; eauto].
  - intros [H|H]; apply in_or_app; eauto.
  - intros H. remember (u ++ Schema.Nd k :: Schema.Nd k' :: v) as L eqn:E. revert u v E. induction H as [|x y Hx Hy IH]; intros u v E; [destruct u; discriminate E|].
    symmetry in E. apply in_or_app. apply S in E as [(v' & ->)|[[-> ->]|(u' & ->)]]; [left; eauto| |].
    + right. apply in_prod; [eapply lasts_sound; eauto|apply (firsts_sound k' (Schema.Many a) v Hy)].
    + specialize (IH u' v eq_refl). apply in_app_or in IH. exact IH.
Qed.

(** * First and last children, neighbours *)
Definition first_child (p z : elem) : Prop := exists r, children_with_tokens p = z :: r.
Definition last_child (p z : elem) : Prop := exists l, children_with_tokens p = l ++ [z].
Definition side_by_side (c a y : elem) : Prop := exists l r, children_with_tokens c = l ++ a :: y :: r.
(** [z] is [y], or the first (last) child of such an element. *)
Inductive head_of (y : elem) : elem -> Prop :=
| head_self : head_of y y
| head_more p z : head_of y p -> first_child p z -> head_of y z.
Inductive tail_of (y : elem) : elem -> Prop :=
| tail_self : tail_of y y
| tail_more p z : tail_of y p -> last_child p z -> tail_of y z.
Lemma first_in p z : first_child p z -> In z (children_with_tokens p).
Proof. intros (r & ->). now left. Qed.
Lemma last_in p z : last_child p z -> In z (children_with_tokens p).
Proof. intros (l & ->). apply in_or_app. right. now left. Qed.
Lemma first_unique p p' z : first_child p z -> first_child p' z -> p = p'.
Proof. intros H H'. apply first_in, PropFound3.child_parent in H. apply first_in, PropFound3.child_parent in H'. rewrite H in H'. now injection H'. Qed.
Lemma last_unique p p' z : last_child p z -> last_child p' z -> p = p'.
Proof. intros H H'. apply last_in, PropFound3.child_parent in H. apply last_in, PropFound3.child_parent in H'. rewrite H in H'. now injection H'. Qed.
Lemma head_under y z : first_child y z -> forall w, head_of z w -> head_of y w.
Proof. intros H w. induction 1 as [|p z' _ IH F]; [eapply head_more; [apply head_self|exact H]|eapply head_more; eauto]. Qed.
Lemma tail_under y z : last_child y z -> forall w, tail_of z w -> tail_of y w.
Proof. intros H w. induction 1 as [|p z' _ IH F]; [eapply tail_more; [apply tail_self|exact H]|eapply tail_more; eauto]. Qed.
Lemma heads_linear y y' x : head_of y x -> head_of y' x -> head_of y y' \/ head_of y' y.
Proof.
  intros H. induction H as [|p z H IH F]; intros H'; [right; exact H'|]. inversion H' as [E|p' z' H2 F' E]; subst.
  - left. eapply head_more; eauto.
  - rewrite (first_unique _ _ _ F' F) in H2. auto.
Qed.
Lemma tails_linear y y' x : tail_of y x -> tail_of y' x -> tail_of y y' \/ tail_of y' y.
Proof.
  intros H. induction H as [|p z H IH F]; intros H'; [right; exact H'|]. inversion H' as [E|p' z' H2 F' E]; subst.
  - left. eapply tail_more; eauto.
  - rewrite (last_unique _ _ _ F' F) in H2. auto.
Qed.
Lemma head_pre y z : head_of y z -> In z (preorder_elem y).
Proof. induction 1 as [|p z _ IH F]; [apply preorder_self|]. apply below_in. eapply parent_below; [exact IH|now apply first_in]. Qed.
Lemma tail_pre y z : tail_of y z -> In z (preorder_elem y).
Proof. induction 1 as [|p z _ IH F]; [apply preorder_self|]. apply below_in. eapply parent_below; [exact IH|now apply last_in]. Qed.

Lemma first_token_head : forall e x, first_token e = Some x -> head_of e x.
Proof.
  apply (elem_induction (fun e => forall x, first_token e = Some x -> head_of e x)).
  intros [[k s|k [|c r]] off p] IH x H; cbn in H; [injection H as <-; apply head_self|discriminate H|].
  apply (head_under _ (mkElem c off (mkCrumb k off [] r :: p))); [eexists; reflexivity|]. apply IH; [left; reflexivity|exact H].
Qed.
Lemma last_token_tail : forall e x, last_token e = Some x -> tail_of e x.
Proof.
  apply (elem_induction (fun e => forall x, last_token e = Some x -> tail_of e x)).
  intros [[k s|k cs] off p] IH x H; [cbn in H; injection H as <-; apply tail_self|].
  unfold last_token in H. cbn [el_tree el_off el_path last_token_at] in H.
  assert (G : forall cs' l o before, before ++ elems_of k off p l o cs' = children_with_tokens (mkElem (Node k cs) off p) ->
    (fix go (left : list tree) (o : nat) (cs : list tree) : option elem :=
       match cs with [] => None | [c] => last_token_at c o (mkCrumb k off left [] :: p) | c :: r => go (c :: left) (o + tree_len c) r end) l o cs' = Some x ->
    tail_of (mkElem (Node k cs) off p) x).
  { induction cs' as [|c r IHr]; intros l o before I E; [discriminate E|]. destruct r as [|c' r].
    - assert (Hc : last_child (mkElem (Node k cs) off p) (mkElem c o (mkCrumb k off l [] :: p))) by (exists before; now rewrite <- I).
      apply (tail_under _ _ Hc). apply IH; [now apply last_in|exact E].
    - apply (IHr (c :: l) (o + tree_len c) (before ++ [mkElem c o (mkCrumb k off l (c' :: r) :: p)])); [|exact E]. rewrite <- app_assoc. exact I. }
  apply (G cs [] off []); [reflexivity|exact H].
Qed.
Lemma parent_split t e p : In e (elements t) -> parent e = Some p ->
  exists before rest, children_with_tokens p = before ++ e :: rest /\ next_sibling_or_token e = hd_error rest.
Proof.
  intros He P. destruct (elements_within _ _ He) as [_ H2]. destruct e as [x off [|[k o l r] path]]; [discriminate P|].
  unfold parent in P. cbn [el_path el_tree el_off cr_kind cr_left cr_right cr_off] in P. cbn [placed el_path el_off cr_off cr_left] in H2.
  destruct H2 as [-> _]. destruct (siblings_of_list k o path l x r) as (before & E1 & _). injection P as <-.
  exists (rev before), (elems_of k o path (x :: l) (o + trees_len l + tree_len x) r). split.
  - unfold children_with_tokens. cbn [el_tree el_off el_path]. rewrite rev_append_rev. exact E1.
  - unfold next_sibling_or_token. cbn [el_path cr_right]. destruct r as [|t' r]; reflexivity.
Qed.
(** The next token is the first one of the neighbour of the token or of what it ends. *)
Lemma next_token_chain t : forall l x, In l (elements t) -> next_token l = Some x ->
  exists a c y, tail_of a l /\ side_by_side c a y /\ In c (elements t) /\ first_token y = Some x.
Proof.
  intros l x. unfold next_token. generalize (length (el_path l)) as n. intros n. revert l. induction n as [|n IH]; intros l Hl H; cbn [next_token_up] in H.
  - destruct (next_sibling_or_token l) as [y|] eqn:E; [|discriminate H]. destruct (parent l) as [p|] eqn:P.
    + destruct (parent_split t l p Hl P) as (be & rest & C & Er). rewrite E in Er. destruct rest as [|y' rest]; [discriminate Er|]. injection Er as <-.
      exists l, p, y. split; [apply tail_self|]. split; [exists be, rest; exact C|]. split; [|exact H].
      apply within_elements. eapply within_parent; [apply elements_within; exact Hl|exact P].
    + unfold next_sibling_or_token in E. unfold parent in P. destruct (el_path l); [discriminate E|discriminate P].
  - destruct (parent l) as [p|] eqn:P.
    + assert (Hp : In p (elements t)) by (apply within_elements; eapply within_parent; [apply elements_within; exact Hl|exact P]).
      destruct (parent_split t l p Hl P) as (be & rest & C & Er). destruct (next_sibling_or_token l) as [y|] eqn:E.
      * destruct rest as [|y' rest]; [discriminate Er|]. injection Er as <-.
        exists l, p, y. split; [apply tail_self|]. split; [exists be, rest; exact C|]. auto.
      * destruct rest as [|y' rest]; [|discriminate Er]. destruct (IH p Hp H) as (a & c & y & T & R). exists a, c, y. split; [|exact R].
        eapply tail_more; [exact T|]. exists be. exact C.
    + destruct (next_sibling_or_token l) as [y|] eqn:E; [|discriminate H].
      unfold next_sibling_or_token in E. unfold parent in P. destruct (el_path l); [discriminate E|discriminate P].
Qed.
(** What has a neighbour after it is not the last child. *)
Lemma side_not_last p c a y : side_by_side c a y -> last_child p a -> False.
Proof.
  intros (l & r & E) (l' & E'). assert (I : In a (children_with_tokens c)) by (rewrite E; apply in_or_app; right; now left).
  apply PropFound3.child_parent in I. assert (I' : In a (children_with_tokens p)) by (rewrite E'; apply in_or_app; right; now left).
  apply PropFound3.child_parent in I'. rewrite I in I'. injection I' as <-.
  pose proof (children_nodup c) as N. rewrite E in E'. rewrite E in N. change (l ++ a :: y :: r) with (l ++ a :: (y :: r)) in *.
  change (l' ++ [a]) with (l' ++ a :: []) in E'. destruct (nodup_split _ _ _ _ _ N E') as [_ X]. discriminate X.
Qed.
