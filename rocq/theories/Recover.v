(** Text the parser skips: every error node comes with an error message and never swallows the
    beginning of a tag, an output, a comment or an element.  Machinery for C79. *)
From Coq Require Import NArith String Bool Arith Lia List.
Import ListNotations.
From Verif Require Import Text Kind Regex Lexer LexerProofs ParserApi GrammarExpr GrammarTags GrammarHtml Machine
  TreeMachine Simulation TreeSpec WpBase Total TotalHtml Schema Shape ShapeStrict ShapeHtml.
Local Notation length := List.length (only parsing).
Local Open Scope list_scope.
Local Open Scope prog_scope.

(** * What is meant *)
Definition text_of (t : tree) : text := List.concat (map snd (leaves t)).
Definition texts_of (ts : list tree) : text := flat_map text_of ts.
(** [s] is the part of the tree at byte [o]. *)
Inductive at_byte : tree -> nat -> tree -> Prop :=
| at_here t : at_byte t 0 t
| at_below k a c b o s : at_byte c o s -> at_byte (Node k (a ++ c :: b)) (blen (texts_of a) + o) s.

(** Tokens that open a tag, an output, a comment, a doctype or an element. *)
Definition opens_block (k : kind) : Prop := In k [TK_CURLY_PERCENT; TK_CURLY_PERCENT_MINUS; TK_CURLY_PERCENT_TILDE].
Definition opens (k : kind) : Prop := opens_block k \/
  In k [TK_OPEN_CURLY_CURLY; TK_OPEN_CURLY_CURLY_MINUS; TK_OPEN_CURLY_CURLY_TILDE;
        TK_OPEN_CURLY_HASHTAG; TK_OPEN_CURLY_HASHTAG_MINUS; TK_OPEN_CURLY_HASHTAG_TILDE;
        TK_LESS_THAN; TK_LESS_THAN_EXCLAMATION_MARK; TK_LESS_THAN_EXCLAMATION_MARK_MINUS_MINUS].
Definition blank (t : tree) : Prop := exists k s, t = Leaf k s /\ is_trivia k = true.
Definition passed (t : tree) : Prop := exists k s, t = Leaf k s /\ ~ opens k.

(** Skipped tokens [cs] from byte [o] on: the message is about the first of them, or about what is
    right in front of them. *)
Definition skipped (o : nat) (cs : list tree) (errs : list perror) : Prop :=
  Forall passed cs /\ exists e, In e errs /\
  ((exists white k s after, cs = white ++ Leaf k s :: after /\ Forall blank white /\ is_trivia k = false /\
      err_start e = o + blen (texts_of white) /\ err_end e = err_start e + blen s) \/
   err_end e = o).
(** The start of an unknown tag: the message is about the token behind it, or about the end of the file. *)
Definition unknown_tag (T : list token) (o : nat) (cs : list tree) (errs : list perror) : Prop :=
  exists white k s, cs = white ++ [Leaf k s] /\ Forall blank white /\ opens_block k /\
  exists e, In e errs /\
  (err_end e = o + blen (texts_of cs) \/
   exists before gap x after, T = before ++ gap ++ x :: after /\ blen (List.concat (map tk_text before)) = o + blen (texts_of cs) /\
     Forall (fun t => is_trivia (tk_kind t) = true) gap /\ err_start e = tk_start x /\ err_end e = tk_end x).
Definition explained (T : list token) (o : nat) (cs : list tree) (errs : list perror) : Prop :=
  skipped o cs errs \/ unknown_tag T o cs errs.

(** * Texts and places *)
Lemma text_of_node k cs : text_of (Node k cs) = texts_of cs.
Proof.
  unfold text_of, texts_of. cbn [leaves]. induction cs as [|c cs IH]; [reflexivity|]. cbn [flat_map]. rewrite map_app, concat_app, <- IH. reflexivity.
Qed.
Lemma texts_app a b : texts_of (a ++ b) = texts_of a ++ texts_of b.
Proof. apply flat_map_app. Qed.
Lemma texts_leaf ts : texts_of (map leaf ts) = List.concat (map tk_text ts).
Proof.
  induction ts as [|t ts IH]; [reflexivity|]. unfold texts_of in *. cbn [map flat_map List.concat]. rewrite IH. unfold text_of, leaf. cbn. now rewrite app_nil_r.
Qed.
Fixpoint spots (o : nat) (t : tree) : list (nat * list tree) :=
  match t with
  | Leaf _ _ => []
  | Node k cs => (if kind_eqb k ERROR then [(o, cs)] else []) ++
    (fix go o l := match l with [] => [] | c :: l' => spots o c ++ go (o + blen (text_of c)) l' end) o cs
  end.
Fixpoint spots_in (o : nat) (l : list tree) : list (nat * list tree) :=
  match l with [] => [] | c :: l' => spots o c ++ spots_in (o + blen (text_of c)) l' end.
Lemma spots_node o k cs : spots o (Node k cs) = (if kind_eqb k ERROR then [(o, cs)] else []) ++ spots_in o cs.
Proof. reflexivity. Qed.
Lemma spots_app : forall a b o, spots_in o (a ++ b) = spots_in o a ++ spots_in (o + blen (texts_of a)) b.
Proof.
  induction a as [|c a IH]; intros b o; [cbn; now rewrite Nat.add_0_r|]. cbn [app spots_in]. rewrite IH, <- app_assoc. unfold texts_of. cbn [flat_map].
  rewrite blen_app, Nat.add_assoc. reflexivity.
Qed.
Lemma spots_leaves : forall l o, spots_in o (map leaf l) = [].
Proof. induction l as [|t l IH]; intros o; [reflexivity|]. cbn [map spots_in leaf spots app]. apply IH. Qed.
Lemma at_byte_spot : forall t o s, at_byte t o s -> forall cs, s = Node ERROR cs -> forall p, In (p + o, cs) (spots p t).
Proof.
  induction 1 as [t|k a c b o s _ IH]; intros cs E p; [subst; rewrite Nat.add_0_r, spots_node; left; reflexivity|].
  rewrite spots_node, spots_app. cbn [spots_in]. apply in_or_app. right. apply in_or_app. right. apply in_or_app. left.
  rewrite Nat.add_assoc. apply IH. exact E.
Qed.

(** * Programs *)
Section Run.
  Context (dbg : bool) (T : list token) (N len : nat).
  Hypothesis Chain : LexerProofs.chain 0 T len.

  Definition here (s : tstate) : list tree := frames (t_stack s) (t_items s).
  Definition Inv (s : tstate) : Prop :=
    (exists pre, T = pre ++ t_snk s /\ texts_of (here s) = List.concat (map tk_text pre)) /\
    drop_trivia (t_snk s) = drop_trivia (t_rest s) /\
    Forall (fun p => explained T (fst p) (snd p) (t_errs s)) (spots_in 0 (here s)).

  Definition ok {A : Set} (P : tstate -> Prop) (p : prog A) (Q : A -> tstate -> Prop) : Prop :=
    forall n, n <= N -> forall s a s', P s -> run (tstep false dbg T) n p s = OK (a, s') -> Q a s'.
  Definition keep {A : Set} (p : prog A) : Prop := ok Inv p (fun _ => Inv).
  Hypothesis Calls : forall c n, n < N -> forall s a s', Inv s -> run (tstep false dbg T) n (body c) s = OK (a, s') -> Inv s'.

  Lemma ok_ret (A : Set) (P : tstate -> Prop) (a : A) (Q : A -> tstate -> Prop) : (forall s, P s -> Q a s) -> ok P (Ret a) Q.
  Proof. intros H n _ s b s' V E. rewrite run_Ret in E. injection E as <- <-. auto. Qed.
  Lemma ok_bind (A B : Set) P (p : prog A) R (g : A -> prog B) Q : ok P p R -> (forall a, ok (R a) (g a) Q) -> ok P (bind p g) Q.
  Proof.
    intros H G n L s b s' V E. rewrite run_bind in E. destruct (run _ n p s) as [[a s1]|q|] eqn:E1; try discriminate. cbn [rbind fst snd] in E.
    exact (G a n L _ _ _ (H n L _ _ _ V E1) E).
  Qed.
  Lemma ok_op (A B : Set) (P : tstate -> Prop) (o : op B) (k : B -> prog A) (R : B -> tstate -> Prop) Q :
    (forall s b s', P s -> tstep false dbg T B o s = OK (b, s') -> R b s') -> (forall b, ok (R b) (k b) Q) -> ok P (Op o k) Q.
  Proof.
    intros H G n L s a s' V E. rewrite run_Op in E. destruct (tstep _ _ _ _ o s) as [[b s1]|q|] eqn:E1; try discriminate. cbn [rbind fst snd] in E.
    exact (G b n L _ _ _ (H _ _ _ V E1) E).
  Qed.
  Lemma ok_prim (B : Set) (P : tstate -> Prop) (o : op B) (R : B -> tstate -> Prop) : (forall s b s', P s -> tstep false dbg T B o s = OK (b, s') -> R b s') -> ok P (prim o) R.
  Proof. intros H. unfold prim. eapply ok_op; [exact H|]. intros b. apply ok_ret. auto. Qed.
  Lemma ok_weaken (A : Set) (P P' : tstate -> Prop) (p : prog A) Q : (forall s, P s -> P' s) -> ok P' p Q -> ok P p Q.
  Proof. intros H K n L s a s' V E. exact (K n L _ _ _ (H _ V) E). Qed.
  Lemma ok_after (A : Set) P (p : prog A) (Q Q' : A -> tstate -> Prop) : (forall a s, Q a s -> Q' a s) -> ok P p Q -> ok P p Q'.
  Proof. intros H K n L s a s' V E. exact (H _ _ (K n L _ _ _ V E)). Qed.
  Lemma ok_iter (A X B : Set) (P : tstate -> Prop) (f : X -> prog (X + B)) x (k : B -> prog A) (R : B -> tstate -> Prop) Q :
    (forall x, ok P (f x) (fun y s => match y with inl _ => P s | inr b => R b s end)) -> (forall b, ok (R b) (k b) Q) -> ok P (Iter f x k) Q.
  Proof.
    intros H G n L s a s' V E.
    assert (Lp : forall n, n <= N -> forall x s b s', P s -> run (tstep false dbg T) n (Iter f x (fun b => Ret b)) s = OK (b, s') -> R b s').
    { clear n L s a s' V E x. induction n as [n IH] using (well_founded_induction lt_wf). intros L x s b s' V E. rewrite run_Iter in E.
      match type of E with rbind (rbind ?r _) _ = _ => destruct r as [[y s1]|q|] eqn:E1; try discriminate end. cbn [rbind fst snd] in E.
      pose proof (H x n L _ _ _ V E1) as Z. destruct y as [x'|b'].
      - destruct n as [|n]; [discriminate E|]. match type of E with rbind ?r _ = _ => destruct r as [[z s2]|q|] eqn:E2; try discriminate end. cbn [rbind fst snd] in E.
        rewrite run_Ret in E. injection E as <- <-. eapply (IH n); [lia|lia|exact Z|exact E2].
      - cbn [rbind fst snd] in E. rewrite run_Ret in E. injection E as <- <-. exact Z. }
    rewrite run_Iter in E. match type of E with rbind ?r _ = _ => destruct r as [[b s2]|q|] eqn:E2; try discriminate end. cbn [rbind fst snd] in E.
    refine (G b n L _ _ _ _ E). apply (Lp n L x s b s2 V). rewrite run_Iter, E2. cbn [rbind fst snd]. apply run_Ret.
  Qed.
  Lemma keep_call (A : Set) c (k : option nat -> prog A) : (forall a, keep (k a)) -> keep (Call c k).
  Proof.
    intros H n L s a s' V E. rewrite run_Call in E. destruct n as [|n]; [discriminate|].
    match type of E with rbind ?r _ = _ => destruct r as [[b s1]|q|] eqn:E1; try discriminate end. cbn [rbind fst snd] in E.
    refine (H b (S n) L _ _ _ _ E). exact (Calls c n ltac:(lia) _ _ _ V E1).
  Qed.

  (** * The primitives *)
  Definition mono (errs errs' : list perror) := forall e, In e errs -> In e errs'.
  Lemma skipped_mono o cs a b : mono a b -> skipped o cs a -> skipped o cs b.
  Proof. intros M (P & e & I & H). split; [exact P|]. exists e. auto. Qed.
  Lemma explained_mono o cs a b : mono a b -> explained T o cs a -> explained T o cs b.
  Proof.
    intros M [H|H]; [left; eapply skipped_mono; eauto|right]. destruct H as (w & k & s & H1 & H2 & H3 & e & I & H4). exists w, k, s. repeat (split; [assumption|]). exists e. auto.
  Qed.

  (** The node about to be closed. *)
  Definition top (s : tstate) : nat * list tree := match t_stack s with (_, saved) :: st => (blen (texts_of (frames st saved)), trees (t_items s)) | [] => (0, trees (t_items s)) end.

  Lemma trees_snoc its i : trees (its ++ [i]) = trees its ++ item_trees i.
  Proof. unfold trees. rewrite flat_map_app. cbn [flat_map]. now rewrite app_nil_r. Qed.
  Lemma trees_lock l : trees (map lock l) = trees l.
  Proof. induction l as [|i l IH]; [reflexivity|]. unfold trees in *. cbn [map flat_map]. rewrite IH. now destruct i. Qed.
  Lemma split_node_app c : forall its a t b, split_node c its = Some (a, t, b) -> exists m, its = a ++ INode m t :: b.
  Proof.
    induction its as [|i its IH]; intros a t b H; [discriminate|]. cbn [split_node] in H.
    destruct (split_node c its) as [[[a' t'] b']|] eqn:E.
    - injection H as <- -> ->. destruct (IH _ _ _ eq_refl) as (m & ->). exists m. reflexivity.
    - destruct i as [| |m t'|]; try discriminate. destruct (Nat.eqb m c); [|discriminate]. injection H as <- -> ->. exists m. reflexivity.
  Qed.
  Lemma drop_drop r : drop_trivia (drop_trivia r) = drop_trivia r.
  Proof. induction r as [|t r IH]; [reflexivity|]. cbn [drop_trivia]. destruct (is_trivia (tk_kind t)) eqn:E; [exact IH|]. cbn [drop_trivia]. now rewrite E. Qed.

  Lemma head_nontriv : forall r t q, drop_trivia r = t :: q -> is_trivia (tk_kind t) = false.
  Proof.
    induction r as [|x r IH]; intros t q H; [discriminate|]. cbn [drop_trivia] in H. destruct (is_trivia (tk_kind x)) eqn:E; [eauto|]. now injection H as <- _.
  Qed.

  (** Taking tokens: [l] are the next ones, behind white space. *)
  Lemma take_tokens s k l ts us nev : Inv s -> drop_trivia (t_snk s) = l ++ us -> drop_trivia us = drop_trivia ts ->
    Inv (mkT ts us (t_items s ++ [ITok (take_trivia (t_snk s)) k l]) (t_stack s) nev (t_errs s)).
  Proof.
    intros ((pre & ET & Et) & _ & L) E D. unfold Inv, here. cbn [t_snk t_rest t_items t_stack t_errs]. rewrite frames_app.
    unfold trees. cbn [flat_map item_trees]. rewrite app_nil_r. split; [|split; [exact D|]].
    - exists (pre ++ take_trivia (t_snk s) ++ l). split.
      + rewrite ET at 1. rewrite <- (take_drop_trivia (t_snk s)) at 1. rewrite E. now rewrite <- !app_assoc.
      + rewrite !texts_app, texts_leaf. unfold here in Et. rewrite Et, !map_app, !concat_app. do 2 f_equal.
        unfold texts_of, text_of. cbn. now rewrite !app_nil_r.
    - rewrite !spots_app, spots_leaves. cbn [spots_in spots app]. now rewrite app_nil_r.
  Qed.

  Lemma step_inv (B : Set) (o : op B) s b s' : Inv s -> tstep false dbg T B o s = OK (b, s') ->
    (forall m, match o with Complete m' ERROR => m' = m | _ => False end -> explained T (fst (top s)) (snd (top s)) (t_errs s)) -> Inv s'.
  Proof.
    intros V H C. pose proof V as ((pre & ET & Et) & D & L).
    destruct o as [| |site as_|n k| |e tok| |m k|c|q|site f]; cbn [tstep] in H.
    - injection H as <- <-. split; [exists pre; auto|]. split; [cbn [t_snk t_rest]; now rewrite drop_drop|exact L].
    - now injection H as <- <-.
    - destruct (drop_trivia (t_rest s)) as [|t ts] eqn:Dr; [discriminate|]. rewrite D in H. injection H as <- <-.
      apply take_tokens; [exact V|rewrite D; reflexivity|reflexivity].
    - destruct (Nat.eqb _ n); [|discriminate]. destruct (Nat.leb n _); [|discriminate]. injection H as <- <-.
      apply take_tokens; [exact V|symmetry; apply firstn_skipn|now rewrite D].
    - injection H as <- <-. unfold Inv, here. cbn [t_snk t_rest t_items t_stack t_errs]. rewrite frames_app. unfold trees. cbn [flat_map item_trees]. rewrite app_nil_r.
      split; [|split; [now rewrite drop_drop|rewrite spots_app, spots_leaves, app_nil_r; exact L]].
      exists (pre ++ take_trivia (t_snk s)). split; [rewrite <- app_assoc, take_drop_trivia; exact ET|]. rewrite texts_app, texts_leaf, map_app, concat_app. unfold here in Et. now rewrite Et.
    - assert (M : forall x, mono (t_errs s) (t_errs s ++ [x])) by (intros x y Y; apply in_or_app; auto).
      assert (F : forall x, Forall (fun p => explained T (fst p) (snd p) (t_errs s ++ [x])) (spots_in 0 (here s))).
      { intros x. eapply Forall_impl; [|exact L]. intros p. apply explained_mono, M. }
      destruct tok as [tok|].
      + injection H as <- <-. split; [exists pre; auto|]. split; [exact D|apply F].
      + destruct (error_here T _ e) as [err|q|]; try discriminate. cbn [rbind] in H. injection H as <- <-. split; [exists pre; auto|].
        split; [cbn [t_snk t_rest]; now rewrite drop_drop|apply F].
    - injection H as <- <-. unfold Inv, here. cbn [t_snk t_rest t_items t_stack t_errs frames]. unfold trees. cbn [flat_map]. rewrite app_nil_r. split; [exists pre; auto|auto].
    - destruct (t_stack s) as [|[m' saved] stk] eqn:Es; [discriminate|]. destruct (Nat.eqb m' m); [|discriminate]. injection H as <- <-.
      unfold here in *. rewrite Es in *. unfold Inv, here. cbn [t_snk t_rest t_items t_stack t_errs]. rewrite frames_app. unfold trees at 1 3. cbn [flat_map item_trees frames] in *. rewrite app_nil_r.
      split; [exists pre; split; [exact ET|]; rewrite <- Et, !texts_app; f_equal; unfold texts_of; cbn [flat_map]; rewrite app_nil_r; apply text_of_node|]. split; [exact D|].
      rewrite spots_app in *. cbn [spots_in] in *. rewrite app_nil_r, spots_node. apply Forall_app in L as [L1 L2]. apply Forall_app. split; [exact L1|]. apply Forall_app. split; [|exact L2].
      destruct (kind_eqb k ERROR) eqn:K; [|constructor]. apply kind_eqb_eq in K. subst k. constructor; [|constructor]. cbn [fst snd]. specialize (C m eq_refl). unfold top in C. rewrite Es in C. exact C.
    - destruct (split_node c (t_items s)) as [[[older nd] recent]|] eqn:Q; [|discriminate]. injection H as <- <-. destruct (split_node_app _ _ _ _ _ Q) as (m & Ei).
      assert (Eh : here (mkT (t_rest s) (t_snk s) (ILock nd :: map lock recent) ((t_nev s, older) :: t_stack s) (S (t_nev s)) (t_errs s)) = here s).
      { unfold here. cbn [t_items t_stack frames]. rewrite Ei, frames_app. f_equal. unfold trees. cbn [flat_map item_trees]. f_equal. apply trees_lock. }
      unfold Inv. rewrite Eh. split; [exists pre; auto|auto].
    - discriminate H.
    - destruct dbg; [destruct (f _); [|discriminate]|]; injection H as <- <-; [|exact V]. split; [exists pre; auto|]. split; [cbn [t_snk t_rest]; now rewrite drop_drop|exact L].
  Qed.

  (** * Where the next token is *)
  Lemma chain_at : forall l a x r b, LexerProofs.chain a (l ++ x :: r) b ->
    tk_start x = a + blen (List.concat (map tk_text l)) /\ tk_end x = tk_start x + blen (tk_text x).
  Proof.
    induction l as [|y l IH]; intros a x r b H; cbn [app] in H.
    - inversion H; subst. cbn. lia.
    - inversion H as [|? ? ? ? H1 H2 H3 H4]; subst. apply IH in H4 as [-> E]. split; [|exact E]. cbn [map List.concat]. rewrite blen_app. lia.
  Qed.
  Lemma next_at s x r : Inv s -> drop_trivia (t_snk s) = x :: r ->
    tk_start x = blen (texts_of (here s)) + blen (texts_of (map leaf (take_trivia (t_snk s)))) /\ tk_end x = tk_start x + blen (tk_text x).
  Proof.
    intros ((pre & ET & Et) & _) E. pose proof Chain as C. rewrite ET, <- (take_drop_trivia (t_snk s)), E, app_assoc in C. apply chain_at in C as [C1 C2].
    split; [|exact C2]. rewrite C1, texts_leaf, Et, map_app, concat_app, blen_app. reflexivity.
  Qed.
  Lemma top_end s : t_stack s <> [] -> fst (top s) + blen (texts_of (snd (top s))) = blen (texts_of (here s)).
  Proof. unfold top, here. destruct (t_stack s) as [|[m saved] st]; [congruence|]. intros _. cbn [fst snd frames]. now rewrite texts_app, blen_app. Qed.
  Lemma blank_trivia l : Forall blank (map leaf (take_trivia l)).
  Proof. pose proof (take_all_trivia l) as H. induction H as [|t r Ht _ IH]; [constructor|]. cbn [map]. constructor; [|exact IH]. exists (tk_kind t), (tk_text t). auto. Qed.

  (** * Looking ahead *)
  Definition calm (P : tstate -> Prop) : Prop := forall s, P s -> P (mkT (drop_trivia (t_rest s)) (t_snk s) (t_items s) (t_stack s) (t_nev s) (t_errs s)).
  Lemma ok_look (A B : Set) P (f : list token -> A) (g : A -> prog B) Q : calm P ->
    (forall b, ok (fun s => P s /\ f (drop_trivia (t_rest s)) = b) (g b) Q) -> ok P (bind (look f) g) Q.
  Proof.
    intros C H. unfold look. cbn [bind]. apply (ok_op _ _ _ _ _ (fun r s => P s /\ drop_trivia (t_rest s) = r)).
    - intros s b s' V E. cbn [tstep] in E. injection E as <- <-. split; [apply C, V|]. cbn [t_rest]. apply drop_drop.
    - intros r. eapply ok_weaken; [|apply H]. intros s [V E]. cbv beta. now rewrite E.
  Qed.
  Lemma calm_and P (F : list token -> Prop) : calm P -> calm (fun s => P s /\ F (drop_trivia (t_rest s))).
  Proof. intros C s [V E]. split; [apply C, V|]. cbn [t_rest]. now rewrite drop_drop. Qed.
  Lemma calm_inv : calm Inv.
  Proof. intros s V. eapply (step_inv _ Look); [exact V|reflexivity|]. intros m []. Qed.

  Definition excused (s : tstate) (e : perror) : Prop :=
    (exists x r, drop_trivia (t_rest s) = x :: r /\ err_start e = tk_start x /\ err_end e = tk_end x) \/ err_end e = blen (texts_of (here s)).
  (** A message about the next token or the one just taken has been given. *)
  Definition Noted (s : tstate) : Prop := Inv s /\ (drop_trivia (t_rest s) = [] \/ exists e, In e (t_errs s) /\ excused s e).
  Definition Fresh (s : tstate) : Prop := Inv s /\ t_items s = [] /\ t_stack s <> [] /\ exists e, In e (t_errs s) /\ excused s e.
  Definition Filling (s : tstate) : Prop := Inv s /\ t_stack s <> [] /\ skipped (fst (top s)) (snd (top s)) (t_errs s).
  Definition harmless (r : list token) : Prop := exists x q, r = x :: q /\ ~ opens (tk_kind x).
  Lemma calm_noted : calm Noted.
  Proof.
    intros s [V H]. split; [apply calm_inv, V|]. cbn [t_rest t_errs]. rewrite drop_drop. destruct H as [H|(e & I & H)]; [auto|right]. exists e. split; [exact I|].
    unfold excused in *. cbn [t_rest]. rewrite drop_drop. exact H.
  Qed.
  Lemma calm_filling : calm Filling.
  Proof. intros s (V & H). split; [apply calm_inv, V|exact H]. Qed.

  Lemma opens_general k : opens k -> mem_kind k GENERAL_RECOVERY_SET = true.
  Proof. unfold opens, opens_block. cbn [In]. intros H. repeat (destruct H as [H|H]; try (subst k; reflexivity)); contradiction. Qed.
  Lemma ok_looked (A : Set) P (f : list token -> A) : calm P -> ok P (look f) (fun b s => P s /\ f (drop_trivia (t_rest s)) = b).
  Proof.
    intros C. unfold look. apply (ok_op _ _ _ _ _ (fun r s => P s /\ drop_trivia (t_rest s) = r)).
    - intros s b s' V E. cbn [tstep] in E. injection E as <- <-. split; [apply C, V|]. cbn [t_rest]. apply drop_drop.
    - intros r. apply ok_ret. intros s [V E]. now rewrite E.
  Qed.
  Lemma harmless_intro r : l_at_end r = false -> l_at_set GENERAL_RECOVERY_SET r = false -> harmless r.
  Proof.
    destruct r as [|x q]; [discriminate|]. intros _ H. exists x, q. split; [reflexivity|]. intros O. apply opens_general in O. cbn [l_at_set] in H. congruence.
  Qed.
  Lemma stops1 set P : calm P -> ok P (e <- at_end ;; if e then Ret true else a <- at_set set ;; if a then Ret true else at_set GENERAL_RECOVERY_SET)
    (fun b s => P s /\ (b = false -> harmless (drop_trivia (t_rest s)))).
  Proof.
    intros C. unfold at_end at 1. apply ok_look; [exact C|]. intros [|]; [apply ok_ret; intros s [V _]; split; [exact V|discriminate]|].
    unfold at_set at 1. apply ok_look; [apply (calm_and P (fun r => l_at_end r = false)), C|]. intros [|]; [apply ok_ret; intros s [[V _] _]; split; [exact V|discriminate]|].
    eapply ok_after; [|apply ok_looked; apply (calm_and _ (fun r => l_at_set set r = false)), (calm_and P (fun r => l_at_end r = false)), C].
    cbv beta. intros b s [[[V E] _] F]. split; [exact V|]. intros ->. now apply harmless_intro.
  Qed.
  Lemma stops2 set P : calm P -> ok P (e <- at_end ;; if e then Ret true else a <- at_set GENERAL_RECOVERY_SET ;; if a then Ret true else at_set set)
    (fun b s => P s /\ (b = false -> harmless (drop_trivia (t_rest s)))).
  Proof.
    intros C. unfold at_end at 1. apply ok_look; [exact C|]. intros [|]; [apply ok_ret; intros s [V _]; split; [exact V|discriminate]|].
    unfold at_set at 1. apply ok_look; [apply (calm_and P (fun r => l_at_end r = false)), C|]. intros [|]; [apply ok_ret; intros s [[V _] _]; split; [exact V|discriminate]|].
    eapply ok_after; [|apply ok_looked; apply (calm_and _ (fun r => l_at_set GENERAL_RECOVERY_SET r = false)), (calm_and P (fun r => l_at_end r = false)), C].
    cbv beta. intros b s [[[V E] F] _]. split; [exact V|]. intros ->. now apply harmless_intro.
  Qed.

  (** * Skipping *)
  Lemma passed_taken l k x : ~ opens k -> Forall passed (map leaf (take_trivia l) ++ [Leaf k x]).
  Proof.
    intros O. apply Forall_app. split; [|constructor; [|constructor]; exists k, x; auto].
    eapply Forall_impl; [|apply blank_trivia]. intros t (k' & s & -> & H). exists k', s. split; [reflexivity|]. intros O'. apply opens_general in O'.
    destruct k'; try discriminate H; discriminate O'.
  Qed.
  Lemma skip_one : ok (fun s => (Fresh s \/ Filling s) /\ harmless (drop_trivia (t_rest s))) bump (fun _ => Filling).
  Proof.
    apply ok_prim. intros s b s' [V (x & q & E & O)] H.
    assert (VI : Inv s) by (destruct V as [V|V]; apply V). assert (Vs : t_stack s <> []) by (destruct V as [V|V]; apply V).
    assert (D : drop_trivia (t_snk s) = x :: q) by (destruct VI as (_ & D & _); congruence).
    assert (I' : Inv s') by (eapply step_inv; [exact VI|exact H|intros m []]).
    cbn [tstep] in H. rewrite E, D in H. injection H as <- <-. split; [exact I'|]. split; [exact Vs|].
    unfold top. cbn [t_stack t_items t_errs]. destruct (next_at s x q VI D) as [N1 N2]. destruct (t_stack s) as [|[m saved] st] eqn:Es; [congruence|]. cbn [fst snd].
    rewrite trees_snoc. cbn [item_trees map List.concat]. rewrite app_nil_r. destruct V as [(_ & Ei & _ & e & Ie & X)|(_ & _ & X)].
    - rewrite Ei. cbn [trees flat_map app]. split; [now apply passed_taken|]. exists e. split; [exact Ie|].
      assert (Eh : here s = frames st saved) by (unfold here; rewrite Es, Ei; cbn; apply app_nil_r).
      destruct X as [(x' & r & E' & X1 & X2)|X]; [left|right; rewrite X, Eh; reflexivity].
      rewrite E in E'. injection E' as <- <-. exists (map leaf (take_trivia (t_snk s))), (tk_kind x), (tk_text x), []. split; [reflexivity|]. split; [apply blank_trivia|].
      split; [exact (head_nontriv _ _ _ E)|]. rewrite X1, X2, <- Eh. split; [exact N1|exact N2].
    - unfold top in X. rewrite Es in X. cbn [fst snd] in X. destruct X as (P & e & Ie & X). split; [apply Forall_app; split; [exact P|now apply passed_taken]|].
      exists e. split; [exact Ie|]. destruct X as [(w & k & a & post & -> & X)|X]; [left|right; exact X]. exists w, k, a, (post ++ map leaf (take_trivia (t_snk s)) ++ [Leaf (tk_kind x) (tk_text x)]).
      split; [now rewrite <- app_assoc|exact X].
  Qed.
  Lemma close_skipped m : ok Filling (complete m ERROR) (fun _ => Inv).
  Proof. apply ok_prim. intros s b s' (V & _ & X) H. eapply step_inv; [exact V|exact H|]. intros m' _. left. exact X. Qed.
  Lemma keep_bump : keep bump.
  Proof. apply ok_prim. intros s b s' V H. eapply step_inv; [exact V|exact H|]. intros m []. Qed.
  Lemma open_skipped : ok (fun s => Noted s /\ harmless (drop_trivia (t_rest s))) start (fun _ s => Fresh s /\ harmless (drop_trivia (t_rest s))).
  Proof.
    apply ok_prim. intros s b s' [[V X] Hh] H. assert (V' : Inv s') by (eapply step_inv; [exact V|exact H|intros m []]).
    cbn [tstep] in H. injection H as <- <-. split; [|exact Hh]. split; [exact V'|]. split; [reflexivity|]. split; [discriminate|].
    destruct X as [X|(e & Ie & X)]; [destruct Hh as (x & q & E & _); cbn in E; congruence|]. exists e. split; [exact Ie|].
    destruct X as [X|X]; [left; exact X|right]. unfold here. cbn [t_stack t_items frames trees flat_map]. rewrite app_nil_r. exact X.
  Qed.
  Lemma k_recover_expect expected set : ok Noted (recover_expect expected set) (fun _ => Inv).
  Proof.
    unfold recover_expect. eapply ok_bind; [apply stops1, calm_noted|]. cbv beta. intros [|]; [apply ok_ret; intros s [[V _] _]; exact V|].
    eapply ok_bind; [eapply ok_weaken; [|apply open_skipped]; intros s [V H]; auto|]. cbv beta. intros m.
    apply (ok_weaken _ _ (fun s => (Fresh s \/ Filling s) /\ harmless (drop_trivia (t_rest s)))); [intros s [V H]; auto|].
    eapply ok_iter; [|intros b; apply ok_ret; intros s V; exact V]. intros _. eapply ok_bind; [apply skip_one|]. cbv beta. intros _.
    apply (ok_bind _ _ _ _ (fun _ => Filling)).
    { destruct expected; [apply ok_ret; auto|]. eapply ok_after; [|apply ok_looked, calm_filling]. cbv beta. intros a s [V _]. exact V. }
    intros [|].
    - eapply ok_bind; [apply close_skipped|]. intros ?. eapply ok_bind; [apply keep_bump|]. intros t. apply ok_ret. auto.
    - eapply ok_bind; [apply stops2, calm_filling|]. cbv beta. intros [|].
      + eapply ok_bind; [eapply ok_weaken; [|apply close_skipped]; intros s [V _]; exact V|]. intros ?. apply ok_ret. auto.
      + apply ok_ret. intros s [V H]. auto.
  Qed.
  Lemma k_recover set : ok Noted (recover set) (fun _ => Inv).
  Proof. unfold recover. eapply ok_bind; [apply k_recover_expect|]. intros a. apply ok_ret. auto. Qed.

  (** Reporting an error at the next token. *)
  Lemma k_report e : ok Inv (prim (AddErr e None)) (fun _ => Noted).
  Proof.
    apply ok_prim. intros s b s' V H. assert (V' : Inv s') by (eapply step_inv; [exact V|exact H|intros m []]). split; [exact V'|].
    cbn [tstep] in H. destruct (drop_trivia (t_rest s)) as [|x q] eqn:E.
    - left. destruct (error_here T [] e) as [err|p|]; try discriminate. cbn [rbind] in H. injection H as <- <-. reflexivity.
    - right. cbn [error_here rbind] in H. injection H as <- <-. eexists. split; [cbn [t_errs]; apply in_or_app; right; left; reflexivity|].
      left. exists x, q. cbn [t_rest err_start err_end]. split; [|auto]. cbn [drop_trivia]. now rewrite (head_nontriv _ _ _ E).
  Qed.
  (** Taking a token and reporting an error about it. *)
  Definition Took (t : token) (s : tstate) : Prop := Inv s /\ tk_end t = blen (texts_of (here s)).
  Lemma k_bump_took : ok Inv bump Took.
  Proof.
    apply ok_prim. intros s b s' V H. assert (V' : Inv s') by (eapply step_inv; [exact V|exact H|intros m []]). split; [exact V'|].
    pose proof V as (_ & D & _). cbn [tstep] in H. destruct (drop_trivia (t_rest s)) as [|x q] eqn:E; [discriminate|]. rewrite D in H. injection H as <- <-. cbn [tk_end].
    destruct (next_at s x q V D) as [N1 N2]. unfold here. cbn [t_stack t_items]. rewrite frames_app. unfold trees. cbn [flat_map item_trees]. rewrite app_nil_r, !texts_app, !blen_app.
    unfold here in N1. rewrite N2, N1. assert (Z : texts_of [Leaf (tk_kind x) (List.concat (map tk_text [x]))] = tk_text x) by (unfold texts_of, text_of; cbn; now rewrite !app_nil_r). rewrite Z. lia.
  Qed.
  Lemma k_report_took e t : ok (Took t) (add_error_at e t) (fun _ => Noted).
  Proof.
    apply ok_prim. intros s b s' [V X] H. assert (V' : Inv s') by (eapply step_inv; [exact V|exact H|intros m []]). split; [exact V'|].
    cbn [tstep] in H. injection H as <- <-. right. eexists. split; [cbn [t_errs]; apply in_or_app; right; left; reflexivity|]. right. exact X.
  Qed.

  (** A stray quotation mark: a node of its own, with a message. *)
  Definition Single (t : token) (s : tstate) : Prop := Inv s /\ t_stack s <> [] /\ Forall passed (snd (top s)) /\
    exists w k a, snd (top s) = w ++ [Leaf k a] /\ Forall blank w /\ is_trivia k = false /\
      tk_start t = fst (top s) + blen (texts_of w) /\ tk_end t = tk_start t + blen a.
  Definition Bare (s : tstate) : Prop := Inv s /\ t_items s = [] /\ t_stack s <> [].
  Lemma k_open (F : list token -> Prop) : ok (fun s => Inv s /\ F (drop_trivia (t_rest s))) start (fun _ s => Bare s /\ F (drop_trivia (t_rest s))).
  Proof.
    apply ok_prim. intros s b s' [V Hh] H. assert (V' : Inv s') by (eapply step_inv; [exact V|exact H|intros m []]).
    cbn [tstep] in H. injection H as <- <-. split; [|exact Hh]. split; [exact V'|]. split; [reflexivity|]. discriminate.
  Qed.
  Lemma k_single : ok (fun s => Bare s /\ harmless (drop_trivia (t_rest s))) bump Single.
  Proof.
    apply ok_prim. intros s b s' [(VI & Ei & Vs) (x & q & E & O)] H.
    assert (D : drop_trivia (t_snk s) = x :: q) by (destruct VI as (_ & D & _); congruence).
    assert (I' : Inv s') by (eapply step_inv; [exact VI|exact H|intros m []]).
    cbn [tstep] in H. rewrite E, D in H. injection H as <- <-. split; [exact I'|]. split; [exact Vs|].
    unfold top. cbn [t_stack t_items t_errs]. destruct (next_at s x q VI D) as [N1 N2]. destruct (t_stack s) as [|[m saved] st] eqn:Es; [congruence|]. cbn [fst snd].
    rewrite trees_snoc, Ei. cbn [item_trees map List.concat trees flat_map app]. rewrite app_nil_r. split; [now apply passed_taken|].
    assert (Eh : here s = frames st saved) by (unfold here; rewrite Es, Ei; cbn; apply app_nil_r).
    exists (map leaf (take_trivia (t_snk s))), (tk_kind x), (tk_text x). split; [reflexivity|]. split; [apply blank_trivia|]. split; [exact (head_nontriv _ _ _ E)|].
    cbn [tk_start tk_end]. rewrite <- Eh. auto.
  Qed.
  Lemma k_report_single e t : ok (Single t) (add_error_at e t) (fun _ => Filling).
  Proof.
    apply ok_prim. intros s b s' (V & Vs & P & w & k & a & X1 & X2 & X3 & X4 & X5) H. assert (V' : Inv s') by (eapply step_inv; [exact V|exact H|intros m []]). split; [exact V'|].
    cbn [tstep] in H. injection H as <- <-. split; [exact Vs|]. split; [exact P|]. eexists. split; [cbn [t_errs]; apply in_or_app; right; left; reflexivity|].
    left. exists w, k, a, []. cbn [err_start err_end error_at]. unfold top in *. cbn [t_stack t_items] in *. auto.
  Qed.

  (** The start of a tag. *)
  Definition tagged (s : tstate) : Prop := exists w k a, snd (top s) = w ++ [Leaf k a] /\ Forall blank w /\ opens_block k.
  Definition Tag (s : tstate) : Prop := Inv s /\ t_stack s <> [] /\ tagged s.
  Lemma calm_tag : calm Tag.
  Proof. intros s (V & H). split; [apply calm_inv, V|exact H]. Qed.
  Definition at_block (r : list token) : Prop := l_at_set TWIG_BLOCK_OPEN_SET r = true.
  Lemma block_opens x q : at_block (x :: q) -> opens_block (tk_kind x).
  Proof. unfold at_block. cbn [l_at_set]. intros H. apply mem_kind_in in H. unfold opens_block. exact H. Qed.
  Lemma k_tag : ok (fun s => Bare s /\ at_block (drop_trivia (t_rest s))) bump (fun _ => Tag).
  Proof.
    apply ok_prim. intros s b s' [(VI & Ei & Vs) O] H.
    assert (I' : Inv s') by (eapply step_inv; [exact VI|exact H|intros m []]).
    pose proof VI as (_ & D & _). cbn [tstep] in H. destruct (drop_trivia (t_rest s)) as [|x q] eqn:E; [discriminate|]. rewrite D in H. injection H as <- <-. split; [exact I'|]. split; [exact Vs|].
    unfold tagged, top. cbn [t_stack t_items]. destruct (t_stack s) as [|[m saved] st]; [congruence|]. cbn [fst snd].
    rewrite trees_snoc, Ei. cbn [item_trees map List.concat trees flat_map app]. rewrite app_nil_r.
    exists (map leaf (take_trivia (t_snk s))), (tk_kind x), (tk_text x). split; [reflexivity|]. split; [apply blank_trivia|]. exact (block_opens _ _ O).
  Qed.
  Lemma k_report_tag e : ok Tag (add_error e) (fun _ s => Inv s /\ unknown_tag T (fst (top s)) (snd (top s)) (t_errs s)).
  Proof.
    apply ok_prim. intros s b s' (V & Vs & w & k & a & X1 & X2 & X3) H. assert (V' : Inv s') by (eapply step_inv; [exact V|exact H|intros m []]). split; [exact V'|].
    pose proof V as ((pre & ET & Et) & D & _). pose proof (top_end s Vs) as Te. cbn [tstep] in H.
    destruct (error_here T (drop_trivia (t_rest s)) (txt e)) as [err|p|] eqn:Eh; try discriminate. cbn [rbind] in H. injection H as <- <-.
    exists w, k, a. split; [exact X1|]. split; [exact X2|]. split; [exact X3|]. exists err. split; [cbn [t_errs]; apply in_or_app; right; left; reflexivity|].
    change (top (mkT (drop_trivia (t_rest s)) (t_snk s) (t_items s) (t_stack s) (t_nev s) (t_errs s ++ [err]))) with (top s). rewrite Te, Et.
    unfold error_here in Eh. destruct (drop_trivia (t_rest s)) as [|x q] eqn:E.
    - destruct (rev T) as [|t r] eqn:Er; [discriminate|]. injection Eh as <-. cbn [err_start err_end].
      assert (ER : T = rev r ++ [t]) by (rewrite <- (rev_involutive T), Er; reflexivity).
      pose proof (take_all_trivia (t_snk s)) as Tt. pose proof (take_drop_trivia (t_snk s)) as Td. rewrite D, app_nil_r in Td. rewrite Td in Tt. clear Td.
      destruct (rev (t_snk s)) as [|u g] eqn:Eg.
      + left. assert (Z : t_snk s = []) by (rewrite <- (rev_involutive (t_snk s)), Eg; reflexivity). rewrite Z, app_nil_r in ET. subst pre.
        pose proof Chain as C. rewrite ER in C. apply chain_at in C as [C1 C2]. rewrite C2, C1, ER, map_app, concat_app, blen_app. cbn. now rewrite app_nil_r.
      + right. assert (Z : t_snk s = rev g ++ [u]) by (rewrite <- (rev_involutive (t_snk s)), Eg; reflexivity).
        assert (Et' : t = u). { rewrite ET, Z, app_assoc in ER. apply app_inj_tail in ER as [_ ->]. reflexivity. }
        subst u. rewrite Z in Tt. apply Forall_app in Tt as [Tt _]. exists pre, (rev g), t, []. split; [now rewrite <- Z|]. auto.
    - injection Eh as <-. right. exists pre, (take_trivia (t_snk s)), x, q. rewrite <- D, take_drop_trivia. split; [exact ET|]. split; [reflexivity|]. split; [apply take_all_trivia|]. auto.
  Qed.

  (** * Every function of the grammar *)
  Definition kept {A : Set} (p : prog A) : Prop := ok Noted p (fun _ => Inv).
  Lemma keep_ret (A : Set) (a : A) : keep (Ret a).
  Proof. apply ok_ret. auto. Qed.
  Lemma keep_bind (A B : Set) (p : prog A) (g : A -> prog B) : (forall a, keep (g a)) -> keep p -> keep (bind p g).
  Proof. intros G P. eapply ok_bind; [exact P|exact G]. Qed.
  Lemma keep_report (A : Set) e (g : unit -> prog A) : kept (g tt) -> keep (bind (add_error e) g).
  Proof. intros G. eapply ok_bind; [apply k_report|]. intros []. exact G. Qed.
  Lemma keep_report_t (A : Set) e (g : unit -> prog A) : kept (g tt) -> keep (bind (add_error_t e) g).
  Proof. intros G. eapply ok_bind; [apply k_report|]. intros []. exact G. Qed.
  Lemma kept_bind (A B : Set) (p : prog A) (g : A -> prog B) : kept p -> (forall a, keep (g a)) -> kept (bind p g).
  Proof. intros P G. eapply ok_bind; [exact P|exact G]. Qed.
  Lemma kept_weaken (A : Set) (p : prog A) : keep p -> kept p.
  Proof. apply ok_weaken. intros s V. apply V. Qed.
  Definition closes_error {B : Set} (o : op B) : bool := match o with Complete _ k => kind_eqb k ERROR | _ => false end.
  Lemma keep_prim (B : Set) (o : op B) : closes_error o = false -> keep (prim o).
  Proof. intros Z. apply ok_prim. intros s b s' V H. eapply step_inv; [exact V|exact H|]. intros m C. destruct o; try contradiction. destruct k; try contradiction; discriminate Z. Qed.
  Lemma keep_op (A B : Set) (o : op B) (k : B -> prog A) : closes_error o = false -> (forall b, keep (k b)) -> keep (Op o k).
  Proof.
    intros Z K. eapply ok_op; [|exact K]. cbv beta. intros s b s' V H. eapply step_inv; [exact V|exact H|]. intros m C. destruct o; try contradiction. destruct k0; try contradiction; discriminate Z.
  Qed.
  Lemma keep_look (B : Set) (f : list token -> B) : keep (look f).
  Proof. eapply ok_after; [|apply ok_looked, calm_inv]. cbv beta. intros a s [V _]. exact V. Qed.
  Lemma keep_iter (A X B : Set) (f : X -> prog (X + B)) x (k : B -> prog A) : (forall x, keep (f x)) -> (forall b, keep (k b)) -> keep (Iter f x k).
  Proof. intros F K. eapply (ok_iter _ _ _ Inv _ _ _ (fun _ => Inv)); [|exact K]. intros y. eapply ok_after; [|apply F]. cbv beta. intros [z|z] s V; exact V. Qed.
  Lemma keep_many (X : Set) (early : X -> prog (bool * X)) (child : X -> prog X) x :
    (forall x, keep (early x)) -> (forall x, keep (child x)) -> keep (parse_many_st early child x).
  Proof.
    intros H1 H2. unfold parse_many_st. apply keep_iter; [|intros; apply keep_ret]. intros y.
    apply keep_bind; [|apply keep_prim; reflexivity]. intros pos. apply keep_bind; [|apply keep_look]. intros b.
    destruct b; [apply keep_bind; [intros; apply keep_ret|apply keep_prim; reflexivity]|].
    apply keep_bind; [|apply keep_look]. intros e. destruct e; [apply keep_ret|]. apply keep_bind; [|apply H1].
    intros [b x1]. destruct b; [apply keep_ret|]. apply keep_bind; [|apply H2]. intros x2. apply keep_bind; [|apply keep_prim; reflexivity].
    intros pos'. destruct (Nat.eqb _ _); apply keep_ret.
  Qed.
  Lemma keep_parse_many (early : prog bool) (child : prog unit) : keep early -> keep child -> keep (parse_many early child).
  Proof. intros H1 H2. unfold parse_many. apply keep_many; intros; auto. apply keep_bind; [intros; apply keep_ret|exact H1]. Qed.
  Lemma keep_parse_body early child : keep early -> keep (parse_body early child).
  Proof.
    intros H. unfold parse_body. apply keep_bind; [|apply keep_prim; reflexivity]. intros.
    apply keep_bind; [intros; apply keep_bind; [intros; apply keep_ret|apply keep_prim; reflexivity]|]. apply keep_parse_many; [exact H|].
    unfold call_child. cbn [bind]. apply keep_call. intros. apply keep_ret.
  Qed.
  Create HintDb keep discriminated.
  #[local] Hint Constants Opaque : keep.
  #[local] Hint Resolve keep_look : keep.
  Ltac keep1 :=
    lazymatch goal with
    | |- keep (Ret _) => apply keep_ret
    | |- keep (bind (debug_assert_site _ _) _) => unfold debug_assert_site, prim; cbn [bind]
    | |- keep (bind (add_error _) _) => apply keep_report
    | |- keep (bind (add_error_t _) _) => apply keep_report_t
    | |- keep (bind _ _) => apply keep_bind; [intros|]
    | |- kept (bind (recover _) _) => apply kept_bind; [apply k_recover|intros]
    | |- kept (recover _) => apply k_recover
    | |- kept (recover_expect _ _) => apply k_recover_expect
    | |- kept _ => apply kept_weaken
    | |- keep (if ?b then _ else _) => destruct b
    | |- keep (match ?x with _ => _ end) => destruct x
    | |- keep (when ?b _) => unfold when
    | |- keep (parse_many_st _ _ _) => apply keep_many; intros
    | |- keep (parse_many _ _) => apply keep_parse_many
    | |- keep (parse_body _ _) => apply keep_parse_body
    | |- keep (Iter _ _ _) => apply keep_iter; intros
    | |- keep (Op _ _) => apply keep_op; [reflexivity|intros]
    | |- keep (Call _ _) => apply keep_call; intros
    | |- keep (prim _) => apply keep_prim; reflexivity
    | |- keep (complete _ (if ?b then _ else _)) => destruct b
    | |- keep (complete _ _) => apply keep_prim; reflexivity
    | |- keep explicitly_consume_trivia => apply keep_prim; reflexivity
    | |- keep _ => solve [auto with keep nocore]
    end.
  Ltac keeps := cbv beta iota zeta; repeat (keep1; cbv beta iota zeta).

  Lemma w_at_ : forall k, keep (at_ k).
  Proof. intros. unfold at_. keeps. Qed.
  #[local] Hint Resolve w_at_ : keep.
  Lemma w_at_set : forall s, keep (at_set s).
  Proof. intros. unfold at_set. keeps. Qed.
  #[local] Hint Resolve w_at_set : keep.
  Lemma w_at_end : keep at_end.
  Proof. intros. unfold at_end. keeps. Qed.
  #[local] Hint Resolve w_at_end : keep.
  Lemma w_at_following : forall s, keep (at_following s).
  Proof. intros. unfold at_following. keeps. Qed.
  #[local] Hint Resolve w_at_following : keep.
  Lemma w_at_following_content : forall s, keep (at_following_content s).
  Proof. intros. unfold at_following_content. keeps. Qed.
  #[local] Hint Resolve w_at_following_content : keep.
  Lemma w_at_twig_tag : forall k, keep (at_twig_tag k).
  Proof. intros. unfold at_twig_tag. keeps. Qed.
  #[local] Hint Resolve w_at_twig_tag : keep.
  Lemma w_at_twig_block_open : keep at_twig_block_open.
  Proof. intros. unfold at_twig_block_open. keeps. Qed.
  #[local] Hint Resolve w_at_twig_block_open : keep.
  Lemma w_at_twig_block_close : keep at_twig_block_close.
  Proof. intros. unfold at_twig_block_close. keeps. Qed.
  #[local] Hint Resolve w_at_twig_block_close : keep.
  Lemma w_at_twig_var_open : keep at_twig_var_open.
  Proof. intros. unfold at_twig_var_open. keeps. Qed.
  #[local] Hint Resolve w_at_twig_var_open : keep.
  Lemma w_at_twig_comment_open : keep at_twig_comment_open.
  Proof. intros. unfold at_twig_comment_open. keeps. Qed.
  #[local] Hint Resolve w_at_twig_comment_open : keep.
  Lemma w_peek_token : keep peek_token.
  Proof. intros. unfold peek_token. keeps. Qed.
  #[local] Hint Resolve w_peek_token : keep.
  Lemma w_peek_nth_token : forall n, keep (peek_nth_token n).
  Proof. intros. unfold peek_nth_token. keeps. Qed.
  #[local] Hint Resolve w_peek_nth_token : keep.
  Lemma w_get_pos : keep get_pos.
  Proof. intros. unfold get_pos. keeps. Qed.
  #[local] Hint Resolve w_get_pos : keep.
  Lemma w_bump : keep bump.
  Proof. intros. unfold bump. keeps. Qed.
  #[local] Hint Resolve w_bump : keep.
  Lemma w_bump_site : forall s, keep (bump_site s).
  Proof. intros. unfold bump_site, prim. keeps. Qed.
  #[local] Hint Resolve w_bump_site : keep.
  Lemma w_bump_as : forall k, keep (bump_as k).
  Proof. intros. unfold bump_as. keeps. Qed.
  #[local] Hint Resolve w_bump_as : keep.
  Lemma w_bump_next_n_as : forall n k, keep (bump_next_n_as n k).
  Proof. intros. unfold bump_next_n_as. keeps. Qed.
  #[local] Hint Resolve w_bump_next_n_as : keep.
  Lemma w_start : keep start.
  Proof. intros. unfold start. keeps. Qed.
  #[local] Hint Resolve w_start : keep.
  Lemma w_precede : forall c, keep (precede c).
  Proof. intros. unfold precede. keeps. Qed.
  #[local] Hint Resolve w_precede : keep.
  Lemma w_fail : forall B p, keep (@fail B p).
  Proof. intros. unfold fail. keeps. Qed.
  #[local] Hint Resolve w_fail : keep.
  Lemma w_debug_assert : forall f, keep (debug_assert f).
  Proof. intros. unfold debug_assert. keeps. Qed.
  #[local] Hint Resolve w_debug_assert : keep.
  Lemma w_add_error : forall e, keep (add_error e).
  Proof. intros. unfold add_error. keeps. Qed.
  #[local] Hint Resolve w_add_error : keep.
  Lemma w_add_error_t : forall e, keep (add_error_t e).
  Proof. intros. unfold add_error_t. keeps. Qed.
  #[local] Hint Resolve w_add_error_t : keep.
  Lemma w_add_error_at : forall e t, keep (add_error_at e t).
  Proof. intros. unfold add_error_at. keeps. Qed.
  #[local] Hint Resolve w_add_error_at : keep.
  Lemma w_display : forall k, keep (display k).
  Proof. intros. unfold display. keeps. Qed.
  #[local] Hint Resolve w_display : keep.
  Lemma w_display_or : forall ks, keep (display_or ks).
  Proof. induction ks as [|k ks IH]; [apply keep_ret|]. cbn [display_or]. destruct ks; keeps. Qed.
  #[local] Hint Resolve w_display_or : keep.
  Lemma w_expect : forall k set, keep (expect k set).
  Proof. intros. unfold expect. keeps. Qed.
  #[local] Hint Resolve w_expect : keep.
  Lemma w_expect_any : forall ks set, keep (expect_any ks set).
  Proof. intros. unfold expect_any. keeps. Qed.
  #[local] Hint Resolve w_expect_any : keep.
  Lemma w_parse_twig_expression_binding_power : forall bp, keep (parse_twig_expression_binding_power bp).
  Proof. intros. unfold parse_twig_expression_binding_power. keeps. Qed.
  #[local] Hint Resolve w_parse_twig_expression_binding_power : keep.
  Lemma w_parse_twig_expression : keep parse_twig_expression.
  Proof. intros. unfold parse_twig_expression. keeps. Qed.
  #[local] Hint Resolve w_parse_twig_expression : keep.
  Lemma w_parse_twig_name : keep parse_twig_name.
  Proof. intros. unfold parse_twig_name. keeps. Qed.
  #[local] Hint Resolve w_parse_twig_name : keep.
  Lemma w_parse_twig_number : keep parse_twig_number.
  Proof. intros. unfold parse_twig_number. keeps. Qed.
  #[local] Hint Resolve w_parse_twig_number : keep.
  Lemma w_parse_twig_null : keep parse_twig_null.
  Proof. intros. unfold parse_twig_null. keeps. Qed.
  #[local] Hint Resolve w_parse_twig_null : keep.
  Lemma w_parse_twig_boolean : keep parse_twig_boolean.
  Proof. intros. unfold parse_twig_boolean. keeps. Qed.
  #[local] Hint Resolve w_parse_twig_boolean : keep.
  Lemma w_twig_string_child : forall quote_kind interpolation_allowed, keep (twig_string_child quote_kind interpolation_allowed).
  Proof. intros. unfold twig_string_child. keeps. Qed.
  #[local] Hint Resolve w_twig_string_child : keep.
  Lemma w_parse_twig_string : forall interpolation_allowed, keep (parse_twig_string interpolation_allowed).
  Proof. intros. unfold parse_twig_string. keeps. Qed.
  #[local] Hint Resolve w_parse_twig_string : keep.
  Lemma w_parse_twig_array : keep parse_twig_array.
  Proof. intros. unfold parse_twig_array. keeps. Qed.
  #[local] Hint Resolve w_parse_twig_array : keep.
  Lemma w_parse_twig_hash_key : keep parse_twig_hash_key.
  Proof. intros. unfold parse_twig_hash_key. keeps. Qed.
  #[local] Hint Resolve w_parse_twig_hash_key : keep.
  Lemma w_parse_twig_hash_pair : keep parse_twig_hash_pair.
  Proof. intros. unfold parse_twig_hash_pair. keeps. Qed.
  #[local] Hint Resolve w_parse_twig_hash_pair : keep.
  Lemma w_parse_twig_hash : keep parse_twig_hash.
  Proof. intros. unfold parse_twig_hash. keeps. Qed.
  #[local] Hint Resolve w_parse_twig_hash : keep.
  Lemma w_parse_twig_function_argument : keep parse_twig_function_argument.
  Proof. intros. unfold parse_twig_function_argument. keeps. Qed.
  #[local] Hint Resolve w_parse_twig_function_argument : keep.
  Lemma w_parse_arguments : forall closing, keep (parse_arguments closing).
  Proof. intros. unfold parse_arguments. keeps. Qed.
  #[local] Hint Resolve w_parse_arguments : keep.
  Lemma w_parse_twig_filter : forall last_node, keep (parse_twig_filter last_node).
  Proof. intros. unfold parse_twig_filter. keeps. Qed.
  #[local] Hint Resolve w_parse_twig_filter : keep.
  Lemma w_parse_twig_indexer : forall last_node, keep (parse_twig_indexer last_node).
  Proof. intros. unfold parse_twig_indexer. keeps. Qed.
  #[local] Hint Resolve w_parse_twig_indexer : keep.
  Lemma w_parse_twig_function : forall last_node, keep (parse_twig_function last_node).
  Proof. intros. unfold parse_twig_function. keeps. Qed.
  #[local] Hint Resolve w_parse_twig_function : keep.
  Lemma w_parse_twig_accessor : forall last_node, keep (parse_twig_accessor last_node).
  Proof. intros. unfold parse_twig_accessor. keeps. Qed.
  #[local] Hint Resolve w_parse_twig_accessor : keep.
  Lemma w_parse_twig_test_implicit_argument : forall last_node, keep (parse_twig_test_implicit_argument last_node).
  Proof. intros. unfold parse_twig_test_implicit_argument. keeps. Qed.
  #[local] Hint Resolve w_parse_twig_test_implicit_argument : keep.
  Lemma w_parse_twig_arrow_function : forall last_node, keep (parse_twig_arrow_function last_node).
  Proof. intros. unfold parse_twig_arrow_function. keeps. Qed.
  #[local] Hint Resolve w_parse_twig_arrow_function : keep.
  Lemma w_parse_postfix_operators : forall node, keep (parse_postfix_operators node).
  Proof. intros. unfold parse_postfix_operators. keeps. Qed.
  #[local] Hint Resolve w_parse_postfix_operators : keep.
  Lemma w_parse_twig_literal : keep parse_twig_literal.
  Proof. intros. unfold parse_twig_literal. keeps. Qed.
  #[local] Hint Resolve w_parse_twig_literal : keep.
  Lemma w_parse_conditional_expression : forall lhs, keep (parse_conditional_expression lhs).
  Proof. intros. unfold parse_conditional_expression. keeps. Qed.
  #[local] Hint Resolve w_parse_conditional_expression : keep.
  Lemma w_binary_loop : forall minimum_binding_power lhs, keep (binary_loop minimum_binding_power lhs).
  Proof. intros. unfold binary_loop. keeps. Qed.
  #[local] Hint Resolve w_binary_loop : keep.
  Lemma w_parse_twig_expression_binding_power_rhs : forall minimum_binding_power lhs, keep (parse_twig_expression_binding_power_rhs minimum_binding_power lhs).
  Proof. intros. unfold parse_twig_expression_binding_power_rhs. keeps. Qed.
  #[local] Hint Resolve w_parse_twig_expression_binding_power_rhs : keep.
  Lemma w_parse_paren_expression : keep parse_paren_expression.
  Proof. intros. unfold parse_paren_expression. keeps. Qed.
  #[local] Hint Resolve w_parse_paren_expression : keep.
  Lemma w_parse_paren_arrow_function : forall m, keep (parse_paren_arrow_function m).
  Proof. intros. unfold parse_paren_arrow_function. keeps. Qed.
  #[local] Hint Resolve w_parse_paren_arrow_function : keep.
  Lemma w_parse_unary_expression : keep parse_unary_expression.
  Proof. intros. unfold parse_unary_expression. keeps. Qed.
  #[local] Hint Resolve w_parse_unary_expression : keep.
  Lemma w_parse_twig_expression_lhs : keep parse_twig_expression_lhs.
  Proof. intros. unfold parse_twig_expression_lhs. keeps. Qed.
  #[local] Hint Resolve w_parse_twig_expression_lhs : keep.
  Lemma w_body_expression : forall minimum_binding_power, keep (body_expression minimum_binding_power).
  Proof. intros. unfold body_expression. keeps. Qed.
  #[local] Hint Resolve w_body_expression : keep.
  Lemma w_at_twig_termination_tag : keep at_twig_termination_tag.
  Proof. intros. unfold at_twig_termination_tag. keeps. Qed.
  #[local] Hint Resolve w_at_twig_termination_tag : keep.
  Lemma w_call_child : forall f, keep (call_child f).
  Proof. intros. unfold call_child. keeps. Qed.
  #[local] Hint Resolve w_call_child : keep.
  Lemma w_parse_ending : forall kw r1 r2 r3 node, kind_eqb node ERROR = false -> keep (parse_ending kw r1 r2 r3 node).
  Proof. intros kw r1 r2 r3 node Z. unfold parse_ending. keeps; apply keep_prim; exact Z. Qed.
  #[local] Hint Extern 1 (keep (parse_ending _ _ _ _ _)) => (apply w_parse_ending; reflexivity) : keep.
  Lemma w_expression_or : forall msg set, keep (expression_or msg set).
  Proof. intros. unfold expression_or. keeps. Qed.
  #[local] Hint Resolve w_expression_or : keep.
  Lemma w_name_or : forall msg set, keep (name_or msg set).
  Proof. intros. unfold name_or. keeps. Qed.
  #[local] Hint Resolve w_name_or : keep.
  Lemma w_string_or : forall msg set, keep (string_or msg set).
  Proof. intros. unfold string_or. keeps. Qed.
  #[local] Hint Resolve w_string_or : keep.
  Lemma w_opt_bump : forall k, keep (opt_bump k).
  Proof. intros. unfold opt_bump. keeps. Qed.
  #[local] Hint Resolve w_opt_bump : keep.
  Lemma w_parse_twig_cache : forall outer child, keep (parse_twig_cache outer child).
  Proof. intros. unfold parse_twig_cache. keeps. Qed.
  #[local] Hint Resolve w_parse_twig_cache : keep.
  Lemma w_parse_twig_with : forall outer child, keep (parse_twig_with outer child).
  Proof. intros. unfold parse_twig_with. keeps. Qed.
  #[local] Hint Resolve w_parse_twig_with : keep.
  Lemma w_parse_end_name : forall what name, keep (parse_end_name what name).
  Proof.
    intros. unfold parse_end_name. apply keep_bind; [intros [|]|apply keep_look]; [|apply keep_ret]. eapply ok_bind; [apply k_bump_took|]. cbv beta. intros t.
    assert (R : forall s, Took t s -> Inv s) by (intros s V; apply V). destruct name as [n|]; [|apply ok_ret; exact R]. destruct (text_eqb _ _); [apply ok_ret; exact R|].
    eapply ok_bind; [apply k_report_took|]. intros ?. apply k_recover.
  Qed.
  #[local] Hint Resolve w_parse_end_name : keep.
  Lemma w_parse_twig_macro : forall outer child, keep (parse_twig_macro outer child).
  Proof. intros. unfold parse_twig_macro. keeps. Qed.
  #[local] Hint Resolve w_parse_twig_macro : keep.
  Lemma w_parse_twig_verbatim : forall outer child, keep (parse_twig_verbatim outer child).
  Proof. intros. unfold parse_twig_verbatim. keeps. Qed.
  #[local] Hint Resolve w_parse_twig_verbatim : keep.
  Lemma w_parse_twig_sandbox : forall outer child, keep (parse_twig_sandbox outer child).
  Proof. intros. unfold parse_twig_sandbox. keeps. Qed.
  #[local] Hint Resolve w_parse_twig_sandbox : keep.
  Lemma w_parse_twig_flush : forall outer, keep (parse_twig_flush outer).
  Proof. intros. unfold parse_twig_flush. keeps. Qed.
  #[local] Hint Resolve w_parse_twig_flush : keep.
  Lemma w_parse_twig_do : forall outer, keep (parse_twig_do outer).
  Proof. intros. unfold parse_twig_do. keeps. Qed.
  #[local] Hint Resolve w_parse_twig_do : keep.
  Lemma w_parse_twig_deprecated : forall outer, keep (parse_twig_deprecated outer).
  Proof. intros. unfold parse_twig_deprecated. keeps. Qed.
  #[local] Hint Resolve w_parse_twig_deprecated : keep.
  Lemma w_parse_twig_autoescape : forall outer child, keep (parse_twig_autoescape outer child).
  Proof. intros. unfold parse_twig_autoescape. keeps. Qed.
  #[local] Hint Resolve w_parse_twig_autoescape : keep.
  Lemma w_parse_twig_apply : forall outer child, keep (parse_twig_apply outer child).
  Proof. intros. unfold parse_twig_apply. keeps. Qed.
  #[local] Hint Resolve w_parse_twig_apply : keep.
  Lemma w_parse_twig_import : forall outer, keep (parse_twig_import outer).
  Proof. intros. unfold parse_twig_import. keeps. Qed.
  #[local] Hint Resolve w_parse_twig_import : keep.
  Lemma w_parse_name_as_name_override : forall expected_description, keep (parse_name_as_name_override expected_description).
  Proof. intros. unfold parse_name_as_name_override. keeps. Qed.
  #[local] Hint Resolve w_parse_name_as_name_override : keep.
  Lemma w_parse_overrides : forall desc, keep (parse_overrides desc).
  Proof. intros. unfold parse_overrides. keeps. Qed.
  #[local] Hint Resolve w_parse_overrides : keep.
  Lemma w_parse_twig_from : forall outer, keep (parse_twig_from outer).
  Proof. intros. unfold parse_twig_from. keeps. Qed.
  #[local] Hint Resolve w_parse_twig_from : keep.
  Lemma w_parse_twig_use : forall outer, keep (parse_twig_use outer).
  Proof. intros. unfold parse_twig_use. keeps. Qed.
  #[local] Hint Resolve w_parse_twig_use : keep.
  Lemma w_parse_include_with : forall set, keep (parse_include_with set).
  Proof. intros. unfold parse_include_with. keeps. Qed.
  #[local] Hint Resolve w_parse_include_with : keep.
  Lemma w_parse_twig_embed : forall outer child, keep (parse_twig_embed outer child).
  Proof. intros. unfold parse_twig_embed. keeps. Qed.
  #[local] Hint Resolve w_parse_twig_embed : keep.
  Lemma w_parse_twig_include : forall outer, keep (parse_twig_include outer).
  Proof. intros. unfold parse_twig_include. keeps. Qed.
  #[local] Hint Resolve w_parse_twig_include : keep.
  Lemma w_parse_twig_extends : forall outer, keep (parse_twig_extends outer).
  Proof. intros. unfold parse_twig_extends. keeps. Qed.
  #[local] Hint Resolve w_parse_twig_extends : keep.
  Lemma w_parse_twig_for : forall outer child, keep (parse_twig_for outer child).
  Proof. intros. unfold parse_twig_for. keeps. Qed.
  #[local] Hint Resolve w_parse_twig_for : keep.
  Lemma w_parse_set_assignment : keep parse_set_assignment.
  Proof. intros. unfold parse_set_assignment. keeps. Qed.
  #[local] Hint Resolve w_parse_set_assignment : keep.
  Lemma w_parse_twig_set : forall outer child, keep (parse_twig_set outer child).
  Proof. intros. unfold parse_twig_set. keeps. Qed.
  #[local] Hint Resolve w_parse_twig_set : keep.
  Lemma w_parse_twig_block : forall outer child, keep (parse_twig_block outer child).
  Proof. intros. unfold parse_twig_block. keeps. Qed.
  #[local] Hint Resolve w_parse_twig_block : keep.
  Lemma w_parse_if_branches : forall child, keep (parse_if_branches child).
  Proof. intros. unfold parse_if_branches. keeps. Qed.
  #[local] Hint Resolve w_parse_if_branches : keep.
  Lemma w_parse_twig_if : forall outer child, keep (parse_twig_if outer child).
  Proof. intros. unfold parse_twig_if. keeps. Qed.
  #[local] Hint Resolve w_parse_twig_if : keep.
  Lemma w_parse_twig_trans : forall outer child, keep (parse_twig_trans outer child).
  Proof. intros. unfold parse_twig_trans. keeps. Qed.
  #[local] Hint Resolve w_parse_twig_trans : keep.
  Lemma w_parse_twig_props : forall outer, keep (parse_twig_props outer).
  Proof. intros. unfold parse_twig_props. keeps. Qed.
  #[local] Hint Resolve w_parse_twig_props : keep.
  Lemma w_parse_twig_component : forall outer child, keep (parse_twig_component outer child).
  Proof. intros. unfold parse_twig_component. keeps. Qed.
  #[local] Hint Resolve w_parse_twig_component : keep.
  Lemma w_parse_twig_sw_thumbnails : forall outer, keep (parse_twig_sw_thumbnails outer).
  Proof. intros. unfold parse_twig_sw_thumbnails. keeps. Qed.
  #[local] Hint Resolve w_parse_twig_sw_thumbnails : keep.
  Lemma w_parse_twig_sw_icon : forall outer, keep (parse_twig_sw_icon outer).
  Proof. intros. unfold parse_twig_sw_icon. keeps. Qed.
  #[local] Hint Resolve w_parse_twig_sw_icon : keep.
  Lemma w_parse_twig_sw_return : forall outer, keep (parse_twig_sw_return outer).
  Proof. intros. unfold parse_twig_sw_return. keeps. Qed.
  #[local] Hint Resolve w_parse_twig_sw_return : keep.
  Lemma w_parse_twig_sw_silent_feature_call : forall outer child, keep (parse_twig_sw_silent_feature_call outer child).
  Proof. intros. unfold parse_twig_sw_silent_feature_call. keeps. Qed.
  #[local] Hint Resolve w_parse_twig_sw_silent_feature_call : keep.
  Lemma w_parse_twig_sw_extends : forall outer, keep (parse_twig_sw_extends outer).
  Proof. intros. unfold parse_twig_sw_extends. keeps. Qed.
  #[local] Hint Resolve w_parse_twig_sw_extends : keep.
  Lemma w_parse_twig_sw_include : forall outer, keep (parse_twig_sw_include outer).
  Proof. intros. unfold parse_twig_sw_include. keeps. Qed.
  #[local] Hint Resolve w_parse_twig_sw_include : keep.
  Lemma w_parse_shopware_twig_block_statement : forall outer child, ok Tag (parse_shopware_twig_block_statement outer child) (fun r s => match r with None => Tag s | Some _ => Inv s end).
  Proof.
    assert (F : forall (p : prog nat), keep p -> ok Tag (c <- p ;; Ret (Some c)) (fun r s => match r with None => Tag s | Some _ => Inv s end)).
    { intros p K. eapply ok_bind; [eapply ok_weaken; [|exact K]; intros s V; apply V|]. intros c. apply ok_ret. auto. }
    intros outer child. unfold parse_shopware_twig_block_statement, at_.
    repeat (apply ok_look; [apply calm_tag|]; intros [|]; [eapply ok_weaken; [|apply F; solve [auto with keep nocore]]; intros s V; apply V|eapply ok_weaken; [intros s [V _]; exact V|]]).
    apply ok_ret. auto.
  Qed.
  Lemma w_parse_twig_block_statement : forall child, ok (fun s => Inv s /\ at_block (drop_trivia (t_rest s))) (parse_twig_block_statement child) (fun _ => Inv).
  Proof.
    intros child. unfold parse_twig_block_statement.
    apply (ok_bind _ _ _ _ (fun _ s => Inv s /\ at_block (drop_trivia (t_rest s)))).
    { apply ok_prim. intros s b s' [V A] H. assert (V' : Inv s') by (eapply step_inv; [exact V|exact H|intros m []]). split; [exact V'|].
      cbn [tstep] in H. destruct dbg; [destruct (l_at_set _ _); [|discriminate]|]; injection H as <- <-; [|exact A]. cbn [t_rest]. now rewrite drop_drop. }
    intros ?. eapply ok_bind; [apply k_open|]. cbv beta. intros m. eapply ok_bind; [apply k_tag|]. intros ?.
    assert (F : forall (p : prog nat), keep p -> ok Tag (c <- p ;; Ret (Some c)) (fun (_ : option nat) => Inv)).
    { intros p K. eapply ok_bind; [eapply ok_weaken; [|exact K]; intros s V; apply V|]. intros c. apply ok_ret. auto. }
    unfold at_, at_set.
    repeat (apply ok_look; [apply calm_tag|]; intros [|]; [eapply ok_weaken; [|apply F; solve [auto with keep nocore]]; intros s V; apply V|eapply ok_weaken; [intros s [V _]; exact V|]]).
    eapply ok_bind; [apply w_parse_shopware_twig_block_statement|]. cbv beta. intros [c|]; [apply ok_ret; auto|].
    eapply ok_bind; [apply k_report_tag|]. intros ?. eapply ok_bind; [|intros ?; apply ok_ret; intros s V; exact V].
    apply ok_prim. intros s b s' [V X] H. eapply step_inv; [exact V|exact H|]. intros m' _. right. exact X.
  Qed.
  Lemma w_parse_ludtwig_directive : forall outer closing_kinds, keep (parse_ludtwig_directive outer closing_kinds).
  Proof. intros. unfold parse_ludtwig_directive. keeps. Qed.
  #[local] Hint Resolve w_parse_ludtwig_directive : keep.
  Lemma w_parse_twig_plain_comment : forall outer, keep (parse_twig_plain_comment outer).
  Proof. intros. unfold parse_twig_plain_comment. keeps. Qed.
  #[local] Hint Resolve w_parse_twig_plain_comment : keep.
  Lemma w_parse_twig_comment_statement : keep parse_twig_comment_statement.
  Proof. intros. unfold parse_twig_comment_statement. keeps. Qed.
  #[local] Hint Resolve w_parse_twig_comment_statement : keep.
  Lemma w_parse_twig_var_statement : keep parse_twig_var_statement.
  Proof. intros. unfold parse_twig_var_statement. keeps. Qed.
  #[local] Hint Resolve w_parse_twig_var_statement : keep.
  Lemma w_parse_any_twig : forall child, keep (parse_any_twig child).
  Proof.
    intros child. unfold parse_any_twig, at_twig_block_open, at_set at 1. apply ok_look; [apply calm_inv|]. intros [|].
    - eapply ok_weaken; [|apply w_parse_twig_block_statement]. intros s V. exact V.
    - apply (ok_weaken _ _ Inv); [intros s V; apply V|]. match goal with |- ok Inv ?p _ => change (keep p) end. keeps.
  Qed.
  #[local] Hint Resolve w_parse_any_twig : keep.
  Lemma w_parse_html_doctype : keep parse_html_doctype.
  Proof. intros. unfold parse_html_doctype. keeps. Qed.
  #[local] Hint Resolve w_parse_html_doctype : keep.
  Lemma w_parse_html_text : keep parse_html_text.
  Proof. intros. unfold parse_html_text. keeps. Qed.
  #[local] Hint Resolve w_parse_html_text : keep.
  Lemma w_body_raw_inner : keep body_raw_inner.
  Proof. intros. unfold body_raw_inner. keeps. Qed.
  #[local] Hint Resolve w_body_raw_inner : keep.
  Lemma w_early_end_tag : forall tag_kind tag_name met, keep (early_end_tag tag_kind tag_name met).
  Proof. intros. unfold early_end_tag. keeps. Qed.
  #[local] Hint Resolve w_early_end_tag : keep.
  Lemma w_parse_html_raw_text : forall tag_kind tag_name, keep (parse_html_raw_text tag_kind tag_name).
  Proof. intros. unfold parse_html_raw_text. keeps. Qed.
  #[local] Hint Resolve w_parse_html_raw_text : keep.
  Lemma w_parse_plain_html_comment : forall outer, keep (parse_plain_html_comment outer).
  Proof. intros. unfold parse_plain_html_comment. keeps. Qed.
  #[local] Hint Resolve w_parse_plain_html_comment : keep.
  Lemma w_parse_html_comment : keep parse_html_comment.
  Proof. intros. unfold parse_html_comment. keeps. Qed.
  #[local] Hint Resolve w_parse_html_comment : keep.
  Lemma w_html_string_child : forall inner, keep (html_string_child inner).
  Proof. intros. unfold html_string_child. keeps. Qed.
  #[local] Hint Resolve w_html_string_child : keep.
  Lemma w_inner_double_quote_parser : keep inner_double_quote_parser.
  Proof. intros. unfold inner_double_quote_parser. keeps. Qed.
  #[local] Hint Resolve w_inner_double_quote_parser : keep.
  Lemma w_inner_single_quote_parser : keep inner_single_quote_parser.
  Proof. intros. unfold inner_single_quote_parser. keeps. Qed.
  #[local] Hint Resolve w_inner_single_quote_parser : keep.
  Lemma w_inner_no_quote_parser : keep inner_no_quote_parser.
  Proof. intros. unfold inner_no_quote_parser. keeps. Qed.
  #[local] Hint Resolve w_inner_no_quote_parser : keep.
  Lemma w_quote : forall q, keep match q with
  | Some TK_DOUBLE_QUOTES => inner_double_quote_parser ;; Ret tt
  | Some TK_SINGLE_QUOTES => inner_single_quote_parser ;; Ret tt
  | None => inner_no_quote_parser
  | Some _ => fail PUnreachable
  end.
  Proof.
    assert (A : keep (inner_double_quote_parser ;; Ret tt)) by (apply keep_bind; [intros; apply keep_ret|apply w_inner_double_quote_parser]).
    assert (B : keep (inner_single_quote_parser ;; Ret tt)) by (apply keep_bind; [intros; apply keep_ret|apply w_inner_single_quote_parser]).
    assert (C : keep (@fail unit PUnreachable)) by apply w_fail.
    intros [k|]; [|apply w_inner_no_quote_parser]. destruct k;
    lazymatch goal with
    | |- keep (fail _) => exact C
    | |- keep (bind inner_double_quote_parser _) => exact A
    | |- _ => exact B
    end.
  Qed.
  Lemma w_parse_html_attribute_value_string : keep parse_html_attribute_value_string.
  Proof.
    assert (Q : keep (If at_set [TK_DOUBLE_QUOTES; TK_SINGLE_QUOTES] Then error_m <- start ;; quote <- bump ;;
      add_error_at (txt "no trailing quote because there is no leading quote") quote ;; complete error_m ERROR ;; Ret tt Else Ret tt)).
    { unfold at_set. apply ok_look; [apply calm_inv|]. intros [|]; [|apply ok_ret; intros s V; apply V].
      apply (ok_weaken _ _ (fun s => Inv s /\ harmless (drop_trivia (t_rest s)))).
      { intros s [V E]. split; [exact V|]. destruct (drop_trivia (t_rest s)) as [|x q]; [discriminate E|]. exists x, q. split; [reflexivity|]. intros O. apply opens_general in O.
        cbn [l_at_set] in E. destruct (tk_kind x); first [discriminate E|discriminate O]. }
      eapply ok_bind; [apply k_open|]. cbv beta. intros m. eapply ok_bind; [apply k_single|]. intros t. eapply ok_bind; [apply k_report_single|]. intros ?.
      eapply ok_bind; [apply close_skipped|]. intros ?. apply ok_ret. auto. }
    unfold parse_html_attribute_value_string. apply keep_bind; [intros m|apply keep_prim; reflexivity]. apply keep_bind; [intros q|keeps].
    apply keep_bind; [intros i|apply keep_prim; reflexivity]. apply keep_bind; [intros []|apply w_quote]. apply keep_bind; [intros|keeps]. apply keep_bind; [intros|keeps].
    apply keep_bind; [intros; keeps|]. destruct q as [k|]; [keeps|exact Q].
  Qed.
  #[local] Hint Resolve w_parse_html_attribute_value_string : keep.
  Lemma w_parse_html_attribute_rest : forall attribute_m, keep (parse_html_attribute_rest attribute_m).
  Proof. intros. unfold parse_html_attribute_rest. keeps. Qed.
  #[local] Hint Resolve w_parse_html_attribute_rest : keep.
  Lemma w_body_attr : keep body_attr.
  Proof. intros. unfold body_attr. keeps. Qed.
  #[local] Hint Resolve w_body_attr : keep.
  Lemma w_parse_attribute_list : keep parse_attribute_list.
  Proof. intros. unfold parse_attribute_list. keeps. Qed.
  #[local] Hint Resolve w_parse_attribute_list : keep.
  Lemma w_parse_html_ending_tag : forall tag_kind tag_name met, keep (parse_html_ending_tag tag_kind tag_name met).
  Proof. intros. unfold parse_html_ending_tag. keeps. Qed.
  #[local] Hint Resolve w_parse_html_ending_tag : keep.
  Lemma w_parse_html_element : keep parse_html_element.
  Proof. intros. unfold parse_html_element. keeps. Qed.
  #[local] Hint Resolve w_parse_html_element : keep.
  Lemma w_parse_any_html : keep parse_any_html.
  Proof. intros. unfold parse_any_html. keeps. Qed.
  #[local] Hint Resolve w_parse_any_html : keep.
  Lemma w_body_any : keep body_any.
  Proof. intros. unfold body_any. keeps. Qed.
  #[local] Hint Resolve w_body_any : keep.
  Lemma w_body : forall c, keep (body c).
  Proof. intros. unfold body. keeps. Qed.
  #[local] Hint Resolve w_body : keep.
  Lemma w_root_body : keep root_body.
  Proof. unfold root_body. keeps. Qed.
  #[local] Hint Resolve w_root_body : keep.
End Run.

(** * Every run *)
Lemma all_calls dbg T len : LexerProofs.chain 0 T len -> forall n c s a s', Inv T s -> run (tstep false dbg T) n (body c) s = OK (a, s') -> Inv T s'.
Proof.
  intros C. induction n as [n IH] using (well_founded_induction lt_wf). intros c s a s' V E.
  refine (w_body dbg T n len C _ c n (Nat.le_refl n) s a s' V E). intros c' m L. exact (IH m L c').
Qed.
Lemma recover_tree dbg src t errs : parse_src dbg src = OK (t, errs) -> forall o cs, at_byte t o (Node ERROR cs) -> explained (lex src) o cs errs.
Proof.
  intros H. pose proof (lexed_chain _ _ _ (lex_lexed src)) as C. unfold parse_src in H. destruct (lex src) as [|t0 T0] eqn:E0.
  { assert (E : parse_tokens dbg (parse_fuel []) [] = OK (Node ROOT [], [])) by (destruct dbg; vm_compute; reflexivity).
    rewrite E in H. injection H as <- <-. intros o cs A. exfalso. apply at_byte_spot with (cs := cs) (p := 0) in A; [exact A|reflexivity]. }
  revert H C. generalize (t0 :: T0), (@nil_cons _ t0 T0). clear. intros T HT H C. cbv zeta in H.
  pose proof (parse_tokens_sim dbg (parse_fuel T) T) as Sim.
  pose proof (root_wp dbg T (not_eq_sym HT) (t_root T)) as W.
  assert (Hw : Total.wf T (t_root T)).
  { constructor; cbn [t_root t_rest t_snk t_items t_stack t_errs]; auto.
    - exists []. reflexivity.
    - exists []. split; [reflexivity|]. cbn. constructor.
    - exists Apart. split; [reflexivity|]. congruence. }
  specialize (W Hw eq_refl eq_refl eq_refl). unfold parse_fuel in *.
  destruct (run (tstep false dbg T) (2 * length T + 1) root_body (t_root T)) as [[u s]|q|] eqn:R; cbn [holds] in *.
  - destruct W as ([W1 _ _ _ _] & Hd & Hs). rewrite W1 in Sim. specialize (Sim Hs Hd). rewrite Sim in H. injection H as <- <-.
    assert (V : Inv T s).
    { refine (w_root_body dbg T _ _ C _ _ (Nat.le_refl _) _ _ _ _ R).
      - intros c n _. exact (all_calls dbg T _ C n c).
      - split; [exists []; auto|]. split; [reflexivity|]. constructor. }
    destruct V as (_ & _ & V). intros o cs A. apply at_byte_spot with (cs := cs) (p := 0) in A; [|reflexivity].
    rewrite spots_node, spots_app, spots_leaves, app_nil_r in A. cbn [kind_eqb] in A. unfold here in V. rewrite Hs in V. cbn [frames trees flat_map app] in V.
    rewrite Forall_forall in V. exact (V _ A).
  - destruct q; try discriminate; try (rewrite Sim in H; discriminate). exfalso.
    destruct W as [[_ X]|[_ [X|[X|X]]]]; discriminate X.
  - rewrite Sim in H. discriminate.
Qed.
