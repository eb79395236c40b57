(** A weakest-precondition calculus for grammar programs on the tree machine. *)
From Coq Require Import NArith String Bool Arith Lia List.
Import ListNotations.
From Verif Require Import Text Kind Lexer ParserApi GrammarHtml Machine TreeMachine Simulation.
Local Notation length := List.length (only parsing).

(** Assertions on a result and the visible part of a state: remaining tokens, items of the
    innermost open node, open nodes. *)
Definition post (A : Set) := A -> list token -> list item -> list (nat * list item) -> Prop.

Section Wp.
  (** [I]: hidden state invariant; [Pn]: panics that may happen; [Fu]: whether running out
      of fuel may happen. *)
  Context (step : forall B : Set, op B -> tstate -> res (B * tstate)).
  Context (I : tstate -> Prop) (Pn : panic -> Prop) (Fu : Prop).

  Definition holds {A : Set} (Q : post A) (r : res (A * tstate)) : Prop :=
    match r with
    | OK (a, s) => I s /\ Q a (t_rest s) (t_items s) (t_stack s)
    | Panicked q => Pn q
    | NoFuel => Fu
    end.

  Definition wp {A : Set} (n : nat) (p : prog A) (r : list token) (its : list item)
    (st : list (nat * list item)) (Q : post A) : Prop :=
    forall s, I s -> t_rest s = r -> t_items s = its -> t_stack s = st -> holds Q (run step n p s).

  (** one primitive *)
  Definition wpo {B : Set} (o : op B) r its st (Q : post B) : Prop :=
    forall s, I s -> t_rest s = r -> t_items s = its -> t_stack s = st -> holds Q (step B o s).

  Lemma holds_bind : forall (A B : Set) (Q : post B) (r : res (A * tstate)) f,
    holds (fun a r' its' st' => forall s, I s -> t_rest s = r' -> t_items s = its' -> t_stack s = st' ->
                                          holds Q (f (a, s))) r ->
    holds Q (rbind r f).
  Proof. intros A B Q [[a s]|q|] f H; cbn in *; auto. destruct H as [Hi H]. auto. Qed.

  Lemma holds_mono : forall (A : Set) (Q Q' : post A) r,
    (forall a r i s, Q a r i s -> Q' a r i s) -> holds Q r -> holds Q' r.
  Proof. intros A Q Q' [[a s]|q|] H; cbn; auto. intros []; auto. Qed.

  Lemma wp_mono : forall (A : Set) n (p : prog A) r its st (Q Q' : post A),
    wp n p r its st Q -> (forall a r i s, Q a r i s -> Q' a r i s) -> wp n p r its st Q'.
  Proof. intros A n p r its st Q Q' H HQ s Hi Hr Hs Ht. eapply holds_mono; eauto. Qed.

  Lemma wp_ret : forall (A : Set) n (a : A) r its st (Q : post A), Q a r its st -> wp n (Ret a) r its st Q.
  Proof. intros A n a r its st Q H s Hi <- <- <-. rewrite run_Ret. cbn. auto. Qed.

  Lemma wp_bind : forall (A B : Set) n (p : prog A) (g : A -> prog B) r its st (Q : post B),
    wp n p r its st (fun a r' its' st' => wp n (g a) r' its' st' Q) -> wp n (bind p g) r its st Q.
  Proof.
    intros A B n p g r its st Q H s Hi Hr Hs Ht. rewrite run_bind. apply holds_bind.
    eapply holds_mono; [|eauto]. intros a r' i' s' H' s1 Hi1 Hr1 Hs1 Ht1. cbn [fst snd]. apply H'; auto.
  Qed.

  Lemma wp_assoc : forall (A B C : Set) n (p : prog A) (g : A -> prog B) (h : B -> prog C) r its st (Q : post C),
    wp n (bind (bind p g) h) r its st Q -> wp n (bind p (fun a => bind (g a) h)) r its st Q.
  Proof.
    intros A B C n p g h r its st Q H s Hi Hr Hs Ht. specialize (H s Hi Hr Hs Ht).
    rewrite run_bind in H. rewrite run_bind in H. rewrite run_bind.
    destruct (run step n p s) as [[a s1]|q|]; cbn [rbind fst snd] in *; auto. now rewrite run_bind.
  Qed.

  Lemma wp_op : forall (A B : Set) n (o : op B) (k : B -> prog A) r its st (Q : post A),
    wpo o r its st (fun a r' its' st' => wp n (k a) r' its' st' Q) -> wp n (Op o k) r its st Q.
  Proof.
    intros A B n o k r its st Q H s Hi Hr Hs Ht. rewrite run_Op. apply holds_bind.
    eapply holds_mono; [|eauto]. intros a r' i' s' H' s1 Hi1 Hr1 Hs1 Ht1. cbn [fst snd]. apply H'; auto.
  Qed.

  Lemma wp_prim : forall (B : Set) n (o : op B) r its st (Q : post B),
    wpo o r its st Q -> wp n (prim o) r its st Q.
  Proof.
    intros B n o r its st Q H. apply wp_op. intros s Hi Hr Hs Ht.
    eapply holds_mono; [|eauto]. intros. now apply wp_ret.
  Qed.

  Lemma wp_call : forall (A : Set) n c (k : option nat -> prog A) r its st (Q : post A),
    match n with 0 => Fu | S n' => wp n' (body c) r its st
      (fun a r' its' st' => wp n (k a) r' its' st' Q) end -> wp n (Call c k) r its st Q.
  Proof.
    intros A n c k r its st Q H s Hi Hr Hs Ht. rewrite run_Call. destruct n as [|n']; [exact H|].
    apply holds_bind.
    eapply holds_mono; [|eauto]. intros a r' i' s' H' s1 Hi1 Hr1 Hs1 Ht1. cbn [fst snd]. apply H'; auto.
  Qed.

  (** Loops: [J] is an invariant that may depend on the fuel left. *)
  Lemma wp_iter : forall (A X B : Set) (f : X -> prog (X + B)) (J : nat -> X -> list token -> list item -> list (nat * list item) -> Prop)
    (QB : post B) (n : nat) x (k : B -> prog A) r its st (Q : post A),
    J n x r its st ->
    (forall m x r its st, m <= n -> J m x r its st -> wp m (f x) r its st
       (fun y r' its' st' => match y with
         | inr b => QB b r' its' st'
         | inl x' => match m with 0 => Fu | S m' => J m' x' r' its' st' end
         end)) ->
    (forall b r its st, QB b r its st -> wp n (k b) r its st Q) ->
    wp n (Iter f x k) r its st Q.
  Proof.
    intros A X B f J QB n x k r its st Q HJ Hf Hk.
    assert (H : forall m x r its st, m <= n -> J m x r its st -> wp m (Iter f x (fun b => Ret b)) r its st QB).
    { clear x r its st HJ. induction m as [|m IH]; intros x r its st Hm HJ s Hi Hr Hs Ht.
      - rewrite run_Iter. apply holds_bind. apply holds_bind.
        eapply holds_mono; [|eapply Hf; eauto]. intros y r' i' s' H' s1 Hi1 Hr1 Hs1 Ht1. cbn [fst snd].
        destruct y as [x'|b].
        + exact H'.
        + cbn [holds fst snd]. split; auto. intros s2 Hi2 Hr2 Hs2 Ht2. rewrite run_Ret. cbn [holds fst snd]. split; auto. now rewrite Hr2, Hs2, Ht2, ?Hr1, ?Hs1, ?Ht1.
      - rewrite run_Iter. apply holds_bind. apply holds_bind.
        eapply holds_mono; [|eapply Hf; eauto]. intros y r' i' s' H' s1 Hi1 Hr1 Hs1 Ht1. cbn [fst snd].
        destruct y as [x'|b].
        + eapply holds_mono; [|eapply (IH x' r' i' s'); eauto; lia].
          intros b r2 i2 st2 HQ s2 Hi2 Hr2 Hs2 Ht2. cbn [fst snd]. rewrite run_Ret. cbn [holds fst snd]. split; auto. now rewrite Hr2, Hs2, Ht2, ?Hr1, ?Hs1, ?Ht1.
        + cbn [holds fst snd]. split; auto. intros s2 Hi2 Hr2 Hs2 Ht2. rewrite run_Ret. cbn [holds fst snd]. split; auto. now rewrite Hr2, Hs2, Ht2, ?Hr1, ?Hs1, ?Ht1. }
    intros s Hi Hr Hs Ht. rewrite run_Iter. apply holds_bind. apply holds_bind.
    eapply holds_mono; [|eapply Hf; eauto]. intros y r' i' s' H' s1 Hi1 Hr1 Hs1 Ht1. cbn [fst snd].
    destruct y as [x'|b].
    - destruct n as [|n']; [exact H'|].
      eapply holds_mono; [|eapply (H n' x' r' i' s'); eauto].
      intros b r2 i2 st2 HQ s2 Hi2 Hr2 Hs2 Ht2. cbn [fst snd]. eapply Hk; eauto.
    - cbn [holds fst snd]. split; auto. intros s2 Hi2 Hr2 Hs2 Ht2. eapply (Hk b r' i' s'); eauto; congruence.
  Qed.
End Wp.
