(** How many operations of the parser it takes to parse a file.  Machinery for C80. *)
From Coq Require Import ZArith NArith String Bool Arith Lia List.
Import ListNotations.
From Verif Require Import Text Kind Regex Lexer LexerProofs ParserApi GrammarExpr GrammarTags GrammarHtml Machine TreeMachine Simulation TreeSpec WpBase Total TotalHtml Shape.
Local Notation length := List.length (only parsing).
Local Open Scope list_scope.
Local Open Scope prog_scope.

(** * What is counted *)

(** Every operation of the parser (a look at the next tokens, taking a token, opening or closing a
    node, reporting an error and so on, see [op]) counts one. *)
Definition counting {St : Type} (step : forall B : Set, op B -> St -> res (B * St)) (B : Set) (o : op B) (s : St * nat) : res (B * (St * nat)) :=
  match step B o (fst s) with
  | OK (b, s') => OK (b, (s', S (snd s)))
  | Panicked p => Panicked p
  | NoFuel => NoFuel
  end.
(** Counting changes nothing else. *)
Lemma counting_run (St : Type) (step : forall B : Set, op B -> St -> res (B * St)) n (A : Set) (p : prog A) s c a s' :
  run step n p s = OK (a, s') -> exists c', run (counting step) n p (s, c) = OK (a, (s', c')).
Proof.
  intros H. pose proof (run_sim St (St * nat) (fun x y => fst y = x) step (counting step)) as S.
  assert (G : forall (B : Set) (o : op B) x y, fst y = x -> simres (fun x (y : St * nat) => fst y = x) (step B o x) (counting step B o y)).
  { intros B o x y <-. unfold counting. destruct (step B o (fst y)) as [[b x]|q|]; cbn [simres]; [|destruct q; auto|reflexivity]. eexists. split; reflexivity. }
  specialize (S G n A p s (s, c) eq_refl). rewrite H in S. destruct S as ([s2 c'] & S & E). cbn [fst] in E. subst s2. exists c'. exact S.
Qed.

(** * Bounds *)
Open Scope Z_scope.
Definition K : Z := 150.
Definition BIG : Z := 1000000.
(** [(z, y)]: at most [z] operations if no token is consumed; otherwise [K] for every token less [y]. *)
Definition bound : Set := (Z * Z)%type.
Definition seq (a b : bound) : bound := (fst a + fst b, Z.min (snd a - fst b) (Z.min (snd b - fst a) (snd a + snd b))).
Definition alt (a b : bound) : bound := (Z.max (fst a) (fst b), Z.min (snd a) (snd b)).
Definition within (a b : bound) : bool := (fst a <=? fst b) && (snd b <=? snd a).
Definition never : bound := (- BIG, BIG).
Definition CALL : bound := (24, 44).

Lemma within_left a b : within a (alt a b) = true.
Proof. unfold within, alt. cbn [fst snd]. apply andb_true_iff. split; apply Z.leb_le; lia. Qed.
Lemma within_right a b : within b (alt a b) = true.
Proof. unfold within, alt. cbn [fst snd]. apply andb_true_iff. split; apply Z.leb_le; lia. Qed.

Section Run.
  (** A machine for the operations of the parser: [toks] are all tokens of the file, [rest] those
      from the cursor on. *)
  Context (St : Type) (step : forall B : Set, op B -> St -> res (B * St)) (toks rest : St -> list token) (N : nat).
  Definition advance {B : Set} (o : op B) (s s' : St) : Prop :=
    match o with
    | BumpAs _ _ => (length (rest s') < length (rest s))%nat
    | Look | BumpN _ _ | AddErr _ None | DAssert _ _ => (length (rest s') <= length (rest s))%nat
    | Fail _ => False
    | _ => rest s' = rest s
    end.
  Hypothesis Op_ok : forall (B : Set) (o : op B) s b s', step B o s = OK (b, s') -> toks s' = toks s /\ advance o s s'.
  Hypothesis Pos_ok : forall s b s', step nat GetPos s = OK (b, s') -> s' = s /\ b = (length (toks s) - length (rest s))%nat.
  Definition left (s : St) : Z := Z.of_nat (length (rest s)).
  Definition spent (w : bound) (s : St) (c : nat) (s' : St) (c' : nat) : Prop :=
    toks s' = toks s /\ left s' <= left s /\
    (left s' = left s -> Z.of_nat c' <= Z.of_nat c + fst w) /\
    (left s' < left s -> Z.of_nat c' + K * left s' <= Z.of_nat c + K * left s - snd w).
  Lemma spent_seq w v s c s1 c1 s2 c2 : spent w s c s1 c1 -> spent v s1 c1 s2 c2 -> spent (seq w v) s c s2 c2.
  Proof.
    intros (T1 & L1 & A1 & B1) (T2 & L2 & A2 & B2). destruct w as [z1 y1], v as [z2 y2]. unfold spent, seq, K in *. cbn [fst snd] in *. split; [congruence|]. split; [lia|]. split; lia.
  Qed.
  Lemma spent_within w v s c s' c' : within w v = true -> spent w s c s' c' -> spent v s c s' c'.
  Proof.
    intros H (T & L & A & B). apply andb_true_iff in H as [H1 H2]. apply Z.leb_le in H1, H2. split; [exact T|]. split; [exact L|]. split; intros E; [specialize (A E)|specialize (B E)]; lia.
  Qed.

  Local Notation steps n p s := (run (counting step) n p s).
  Hypothesis Calls : forall c n s k a s' k', (n < N)%nat -> steps n (body c) (s, k) = OK (a, (s', k')) -> spent CALL s k s' k'.

  Definition cost {A : Set} (w : bound) (p : prog A) : Prop :=
    forall n s k a s' k', (n <= N)%nat -> steps n p (s, k) = OK (a, (s', k')) -> spent w s k s' k'.
  (** The body of a loop: bounds for going on and for the end. *)
  Definition turn {X B : Set} (w v : bound) (p : prog (X + B)) : Prop :=
    forall n s k a s' k', (n <= N)%nat -> steps n p (s, k) = OK (a, (s', k')) -> spent (match a with inl _ => w | inr _ => v end) s k s' k'.

  Lemma cost_within (A : Set) w v (p : prog A) : cost w p -> within w v = true -> cost v p.
  Proof. intros H W n s k a s' k' L E. eapply spent_within; [exact W|eauto]. Qed.
  Lemma spent_refl y s k : spent (0, y) s k s k.
  Proof. split; [reflexivity|]. split; [lia|]. cbn [fst snd]. split; lia. Qed.
  Lemma cost_ret (A : Set) (a : A) : cost (0, BIG) (Ret a).
  Proof. intros n s k b s' k' _ E. rewrite run_Ret in E. injection E as <- <- <-. apply spent_refl. Qed.
  Lemma cost_bind (A B : Set) w v (p : prog A) (g : A -> prog B) : cost w p -> (forall a, cost v (g a)) -> cost (seq w v) (bind p g).
  Proof.
    intros H G n s k b s' k' L E. rewrite run_bind in E. destruct (run _ n p (s, k)) as [[a [s1 k1]]|q|] eqn:E1; try discriminate. cbn [rbind fst snd] in E.
    exact (spent_seq _ _ _ _ _ _ _ _ (H _ _ _ _ _ _ L E1) (G a _ _ _ _ _ _ L E)).
  Qed.
  Lemma cost_left (A : Set) w v (p : prog A) : cost w p -> cost (alt w v) p.
  Proof. intros H. eapply cost_within; [exact H|apply within_left]. Qed.
  Lemma cost_right (A : Set) w v (p : prog A) : cost v p -> cost (alt w v) p.
  Proof. intros H. eapply cost_within; [exact H|apply within_right]. Qed.
  Lemma cost_if (A : Set) w v (b : bool) (p q : prog A) : cost w p -> cost v q -> cost (alt w v) (if b then p else q).
  Proof. intros P Q. destruct b; [now apply cost_left|now apply cost_right]. Qed.
  Lemma turn_bind (A X B : Set) w v1 v2 (p : prog A) (g : A -> prog (X + B)) : cost w p -> (forall a, turn v1 v2 (g a)) -> turn (seq w v1) (seq w v2) (bind p g).
  Proof.
    intros H G n s k b s' k' L E. rewrite run_bind in E. destruct (run _ n p (s, k)) as [[a [s1 k1]]|q|] eqn:E1; try discriminate. cbn [rbind fst snd] in E.
    pose proof (spent_seq _ _ _ _ _ _ _ _ (H _ _ _ _ _ _ L E1) (G a _ _ _ _ _ _ L E)) as R. destruct b; exact R.
  Qed.
  Lemma turn_left (X B : Set) w1 w2 v1 v2 (p : prog (X + B)) : turn w1 w2 p -> turn (alt w1 v1) (alt w2 v2) p.
  Proof. intros H n s k a s' k' L E. specialize (H _ _ _ _ _ _ L E). destruct a; (eapply spent_within; [apply within_left|exact H]). Qed.
  Lemma turn_right (X B : Set) w1 w2 v1 v2 (p : prog (X + B)) : turn v1 v2 p -> turn (alt w1 v1) (alt w2 v2) p.
  Proof. intros H n s k a s' k' L E. specialize (H _ _ _ _ _ _ L E). destruct a; (eapply spent_within; [apply within_right|exact H]). Qed.
  Lemma turn_if (X B : Set) w1 w2 v1 v2 (b : bool) (p q : prog (X + B)) : turn w1 w2 p -> turn v1 v2 q -> turn (alt w1 v1) (alt w2 v2) (if b then p else q).
  Proof. intros P Q. destruct b; [now apply turn_left|now apply turn_right]. Qed.
  Lemma turn_on (X B : Set) (x : X) : turn (B := B) (0, BIG) never (Ret (inl x)).
  Proof. intros n s k b s' k' _ E. rewrite run_Ret in E. injection E as <- <- <-. apply spent_refl. Qed.
  Lemma turn_end (X B : Set) (b : B) : turn (X := X) never (0, BIG) (Ret (inr b)).
  Proof. intros n s k c s' k' _ E. rewrite run_Ret in E. injection E as <- <- <-. apply spent_refl. Qed.
  Lemma cost_call (A : Set) w c (k : option nat -> prog A) : (forall a, cost w (k a)) -> cost (seq CALL w) (Call c k).
  Proof.
    intros H n s j a s' j' L E. rewrite run_Call in E. destruct n as [|n]; [discriminate|].
    match type of E with rbind ?r _ = _ => destruct r as [[b [s1 j1]]|q|] eqn:E1; try discriminate end. cbn [rbind fst snd] in E.
    refine (spent_seq _ _ _ _ _ _ _ _ (Calls c n _ _ _ _ _ _ E1) (H b _ _ _ _ _ _ L E)). lia.
  Qed.

  (** Loops. *)
  Definition on_ok (w : bound) : bool := (fst w <=? 0) && (0 <=? snd w).
  Definition loop (w v : bound) : bound := (fst v, Z.min (snd v) (Z.min (snd w - fst v) (snd w + snd v))).
  Lemma loop_step w v s c s1 c1 s2 c2 : on_ok w = true -> spent w s c s1 c1 -> spent (loop w v) s1 c1 s2 c2 -> spent (loop w v) s c s2 c2.
  Proof.
    intros O (T1 & L1 & A1 & B1) (T2 & L2 & A2 & B2). apply andb_true_iff in O as [O1 O2]. apply Z.leb_le in O1, O2. destruct w as [z1 y1], v as [z2 y2]. unfold spent, loop, K in *. cbn [fst snd] in *.
    split; [congruence|]. split; [lia|]. split; [lia|]. intros Lt.
    assert (C : left s1 = left s \/ left s1 < left s) by lia. assert (D : left s2 = left s1 \/ left s2 < left s1) by lia. destruct C, D; lia.
  Qed.
  Lemma loop_last w v s c s2 c2 : spent v s c s2 c2 -> spent (loop w v) s c s2 c2.
  Proof.
    intros H. eapply spent_within; [|exact H]. unfold within, loop. cbn [fst snd]. apply andb_true_iff. split; apply Z.leb_le; lia.
  Qed.
  Lemma turns (X B : Set) w v (f : X -> prog (X + B)) : on_ok w = true -> (forall x, turn w v (f x)) ->
    forall n x s k b s' k', (n <= N)%nat -> steps n (Iter f x (fun b => Ret b)) (s, k) = OK (b, (s', k')) -> spent (loop w v) s k s' k'.
  Proof.
    intros O H. induction n as [n IH] using (well_founded_induction lt_wf). intros x s k b s' k' L E. rewrite run_Iter in E.
    match type of E with rbind (rbind ?r _) _ = _ => destruct r as [[y [s1 k1]]|q|] eqn:E1; try discriminate end. cbn [rbind fst snd] in E.
    pose proof (H x _ _ _ _ _ _ L E1) as Z. destruct y as [x'|b'].
    - destruct n as [|n]; [discriminate E|]. match type of E with rbind ?r _ = _ => destruct r as [[z [s2 k2]]|q|] eqn:E2; try discriminate end. cbn [rbind fst snd] in E.
      rewrite run_Ret in E. injection E as <- <- <-. eapply loop_step; [exact O|exact Z|]. eapply (IH n); [lia|lia|exact E2].
    - cbn [rbind fst snd] in E. rewrite run_Ret in E. injection E as <- <- <-. apply loop_last. exact Z.
  Qed.
  Lemma cost_iter (A X B : Set) w v u (f : X -> prog (X + B)) x (k : B -> prog A) :
    (forall x, turn w v (f x)) -> (forall b, cost u (k b)) -> on_ok w = true -> cost (seq (loop w v) u) (Iter f x k).
  Proof.
    intros H G O n s j a s' j' L E. rewrite run_Iter in E. match type of E with rbind ?r _ = _ => destruct r as [[b [s2 k2]]|q|] eqn:E2; try discriminate end. cbn [rbind fst snd] in E.
    refine (spent_seq _ _ _ _ _ _ _ _ _ (G b _ _ _ _ _ _ L E)). apply (turns _ _ w v f O H n x s j b s2 k2 L). rewrite run_Iter, E2. cbn [rbind fst snd]. apply run_Ret.
  Qed.

  (** * The primitives *)
  Definition LOOK : bound := (1, K - 1).
  Definition TAKE : bound := (1 - K, K - 1).
  Definition STEP : bound := (1, BIG).
  Definition op_bound {B : Set} (o : op B) : bound :=
    match o with BumpAs _ _ => TAKE | Look | BumpN _ _ | AddErr _ None | DAssert _ _ => LOOK | Fail _ => never | _ => STEP end.
  Lemma spent_op (B : Set) (o : op B) s k b s' k' : counting step B o (s, k) = OK (b, (s', k')) -> spent (op_bound o) s k s' k'.
  Proof.
    unfold counting. cbn [fst snd]. destruct (step B o s) as [[b1 s1]|q|] eqn:E; try discriminate. intros H. injection H as <- <- <-.
    destruct (Op_ok _ _ _ _ _ E) as [T A]. unfold spent, left. split; [exact T|].
    destruct o as [| |site as_|n kd| |e [tok|]| |m kd|c|q|site f]; cbn [advance op_bound] in *; try contradiction; unfold STEP, LOOK, TAKE, BIG, K; cbn [fst snd]; first [rewrite A; lia|lia].
  Qed.
  Lemma cost_prim (B : Set) (o : op B) : cost (op_bound o) (prim o).
  Proof.
    intros n s k a s' k' L E. unfold prim in E. rewrite run_Op in E. destruct (counting _ _ o (s, k)) as [[b [s1 k1]]|q|] eqn:E1; try discriminate. cbn [rbind fst snd] in E.
    rewrite run_Ret in E. injection E as <- <- <-. exact (spent_op _ _ _ _ _ _ _ E1).
  Qed.
  Lemma cost_op (A B : Set) (o : op B) w (g : B -> prog A) : (forall b, cost w (g b)) -> cost (seq (op_bound o) w) (Op o g).
  Proof.
    intros G n s k a s' k' L E. rewrite run_Op in E. destruct (counting _ _ o (s, k)) as [[b [s1 k1]]|q|] eqn:E1; try discriminate. cbn [rbind fst snd] in E.
    exact (spent_seq _ _ _ _ _ _ _ _ (spent_op _ _ _ _ _ _ _ E1) (G b _ _ _ _ _ _ L E)).
  Qed.
  Lemma cost_look (B : Set) (f : list token -> B) : cost LOOK (look f).
  Proof.
    unfold look. eapply cost_within; [apply cost_op; intros; apply cost_ret|]. vm_compute. reflexivity.
  Qed.

  Definition many (e c : bound) : bound := seq STEP (seq LOOK (alt (seq TAKE (0, BIG)) (seq LOOK (alt (0, BIG) (seq e (alt (0, BIG) (seq c (seq STEP (0, BIG))))))))).
  Definition moved (w : bound) : bound := (- BIG, snd w).
  Lemma steps_bind n (A C : Set) (p : prog A) (g : A -> prog C) s k b s' k' : steps n (bind p g) (s, k) = OK (b, (s', k')) ->
    exists a s1 k1, steps n p (s, k) = OK (a, (s1, k1)) /\ steps n (g a) (s1, k1) = OK (b, (s', k')).
  Proof.
    intros E. rewrite run_bind in E. destruct (run _ n p (s, k)) as [[a [s1 k1]]|q|] eqn:E1; try discriminate. cbn [rbind fst snd] in E. eauto 10.
  Qed.
  Lemma steps_pos n s k a s' k' : steps n get_pos (s, k) = OK (a, (s', k')) -> s' = s /\ a = (length (toks s) - length (rest s))%nat.
  Proof.
    unfold get_pos, prim. rewrite run_Op. unfold counting. cbn [fst snd]. destruct (step nat GetPos s) as [[b s1]|q|] eqn:E1; try discriminate. apply Pos_ok in E1 as [-> ->].
    cbn [rbind fst snd]. rewrite run_Ret. intros E. injection E as <- <- _. auto.
  Qed.
  Lemma cost_many (X : Set) e c (early : X -> prog (bool * X)) (child : X -> prog X) x :
    (forall x, cost e (early x)) -> (forall x, cost c (child x)) -> on_ok (moved (many e c)) = true -> cost (seq (loop (moved (many e c)) (many e c)) (0, BIG)) (parse_many_st early child x).
  Proof.
    intros H1 H2 O. unfold parse_many_st.
    match goal with |- cost _ (Iter ?f _ _) => set (F := f) end.
    assert (C1 : forall x, cost (many e c) (F x)).
    { intros y. unfold F, many. apply cost_bind; [apply cost_prim|]. intros pos. apply cost_bind; [apply cost_look|]. intros b. apply cost_if; [apply cost_bind; [apply cost_prim|intros; apply cost_ret]|].
      apply cost_bind; [apply cost_look|]. intros b1. apply cost_if; [apply cost_ret|]. apply cost_bind; [apply H1|]. intros [b2 x1]. apply cost_if; [apply cost_ret|].
      apply cost_bind; [apply H2|]. intros x2. apply cost_bind; [apply cost_prim|]. intros pos'. destruct (Nat.eqb pos' pos); apply cost_ret. }
    assert (C2 : forall x, turn (moved (many e c)) (many e c) (F x)).
    { intros y n s k a s' k' L E. pose proof (C1 y n s k a s' k' L E) as Sp. destruct a as [z|z]; [|exact Sp].
      assert (M : left s' < left s).
      { unfold F in E. apply steps_bind in E as (pos & s1 & k1 & E1 & E). apply steps_pos in E1 as [-> ->].
        apply steps_bind in E as (b & s2 & k2 & E2 & E). apply cost_look in E2; [|exact L]. destruct b.
        - apply steps_bind in E as (t & s3 & k3 & E3 & E). rewrite run_Ret in E. injection E as _ <- _.
          assert (left s3 < left s2).
          { unfold bump, prim in E3. rewrite run_Op in E3. unfold counting in E3. cbn [fst snd] in E3. destruct (step _ _ s2) as [[u s4]|q|] eqn:E4; try discriminate.
            apply Op_ok in E4 as [_ E4]. cbn [advance] in E4. cbn [rbind fst snd] in E3. rewrite run_Ret in E3. injection E3 as _ <- _. unfold left. lia. }
          destruct E2 as (_ & ? & _). lia.
        - apply steps_bind in E as (b1 & s3 & k3 & E3 & E). apply cost_look in E3; [|exact L]. destruct b1; [rewrite run_Ret in E; discriminate E|].
          apply steps_bind in E as ([b2 x1] & s4 & k4 & E4 & E). apply H1 in E4; [|exact L]. destruct b2; [rewrite run_Ret in E; discriminate E|].
          apply steps_bind in E as (x2 & s5 & k5 & E5 & E). apply H2 in E5; [|exact L]. apply steps_bind in E as (pos' & s6 & k6 & E6 & E). apply steps_pos in E6 as [-> ->].
          destruct (Nat.eqb _ _) eqn:Q; [rewrite run_Ret in E; discriminate E|]. apply Nat.eqb_neq in Q. rewrite run_Ret in E. injection E as _ <- _.
          destruct E2 as (T2 & L2 & _), E3 as (T3 & L3 & _), E4 as (T4 & L4 & _), E5 as (T5 & L5 & _). rewrite T5, T4, T3, T2 in Q. unfold left in *. lia. }
      destruct Sp as (T & Le & A & B). split; [exact T|]. split; [exact Le|]. split; [intros; lia|exact B]. }
    apply cost_iter; [exact C2|intros; apply cost_ret|exact O].
  Qed.

  Lemma cost_parse_many e c (early : prog bool) (child : prog unit) : cost e early -> cost c child -> on_ok (moved (many (seq e (0, BIG)) c)) = true ->
    cost (seq (loop (moved (many (seq e (0, BIG)) c)) (many (seq e (0, BIG)) c)) (0, BIG)) (parse_many early child).
  Proof. intros H1 H2 O. unfold parse_many. apply cost_many; [|auto|exact O]. intros x. apply cost_bind; [exact H1|]. intros. apply cost_ret. Qed.

  Lemma cost_prim_eq (B : Set) (o : op B) w : op_bound o = w -> cost w (prim o).
  Proof. intros <-. apply cost_prim. Qed.
  Lemma cost_op_eq (A B : Set) (o : op B) v w (g : B -> prog A) : op_bound o = v -> (forall b, cost w (g b)) -> cost (seq v w) (Op o g).
  Proof. intros <-. apply cost_op. Qed.

  Lemma cost_fail (A : Set) p : cost (- BIG, BIG) (@fail A p).
  Proof. intros n s k a s' k' _ E. unfold fail in E. rewrite run_Op in E. unfold counting in E. cbn [fst snd] in E. destruct (step _ _ s) as [[b s1]|q|] eqn:E1; try discriminate. destruct (Op_ok _ _ _ _ _ E1) as [_ []]. Qed.
  Lemma cost_assoc (A B C : Set) w (p : prog A) (f : A -> prog B) (g : B -> prog C) : cost w (bind p (fun a => bind (f a) g)) -> cost w (bind (bind p f) g).
  Proof.
    intros H n s k c s' k' L E. apply (H n s k c s' k' L). rewrite !run_bind in E. rewrite run_bind. destruct (run _ n p (s, k)) as [[a [s1 k1]]|q|]; try discriminate. cbn [rbind fst snd] in *.
    rewrite run_bind. exact E.
  Qed.
  (** A name that is recognised is also consumed. *)
  Lemma cost_name (A : Set) w v (g : option nat -> prog A) : cost v (g None) -> (forall n, cost w (g (Some n))) ->
    cost (seq LOOK (seq LOOK (alt v (seq STEP (seq TAKE (seq STEP w)))))) (bind parse_twig_name g).
  Proof.
    intros P Q. unfold parse_twig_name. apply cost_assoc, cost_bind; [apply cost_look|]. intros b. apply cost_assoc, cost_bind; [apply cost_look|]. intros [t|]; [|apply cost_left, P].
    destruct (negb b && _)%bool; [apply cost_left, P|]. apply cost_right. apply cost_assoc, cost_bind; [apply cost_prim|]. intros m. apply cost_assoc, cost_bind; [apply cost_prim|]. intros u.
    apply cost_assoc, cost_bind; [apply cost_prim|]. intros m'. apply Q.
  Qed.
  Lemma cost_implicit (A : Set) w v (x : option kind) (p q : prog A) : cost w p -> cost v q ->
    cost (alt w v) (match x with Some TK_SAME_AS | Some TK_DIVISIBLE_BY => p | _ => q end).
  Proof.
    intros P Q. apply (cost_left _ w v) in P. apply (cost_right _ w v) in Q. destruct x as [k|]; [|exact Q]. destruct k; first [exact Q|exact P].
  Qed.
  Lemma cost_quoted (A : Set) w v u (x : option kind) (p q r t : prog A) : cost w p -> cost v q -> cost u r -> cost (- BIG, BIG) t ->
    cost (alt w (alt v (alt u (- BIG, BIG)))) (match x with Some TK_DOUBLE_QUOTES => p | Some TK_SINGLE_QUOTES => q | None => r | Some _ => t end).
  Proof.
    intros P Q R T. destruct x as [k|]; [|apply cost_right, cost_right, cost_left, R].
    apply (cost_left _ _ (alt v (alt u (- BIG, BIG)))) in P. apply (cost_left _ _ (alt u (- BIG, BIG))), (cost_right _ w _) in Q. apply (cost_right _ u _), (cost_right _ v _), (cost_right _ w _) in T.
    destruct k; first [exact T|exact P|exact Q].
  Qed.

  (** * Every function of the grammar *)
  Create HintDb cost discriminated.
  #[local] Hint Constants Opaque : cost.
  #[local] Hint Resolve cost_look : cost.
  Ltac branch :=
    lazymatch goal with
    | |- cost ?w _ => tryif is_evar w then eapply cost_left else (eapply cost_right; branch)
    | |- turn ?w _ _ => tryif is_evar w then eapply turn_left else (eapply turn_right; branch)
    end.
  Ltac cost1 :=
    lazymatch goal with
    | |- on_ok _ = true => repeat match goal with |- context [?w] => is_evar w; unify w never end; vm_compute; reflexivity
    | |- cost _ (Ret _) => eapply cost_ret
    | |- turn _ _ (Ret (inl _)) => eapply turn_on
    | |- turn _ _ (Ret (inr _)) => eapply turn_end
    | |- cost _ (bind parse_twig_name _) => eapply cost_name; [|intros]
    | |- cost _ (bind _ _) => eapply cost_bind; [|intros]
    | |- turn _ _ (bind _ _) => eapply turn_bind; [|intros]
    | |- cost _ (if _ then _ else _) => eapply cost_if
    | |- turn _ _ (if _ then _ else _) => eapply turn_if
    | |- cost _ (match ?x with _ => _ end) =>
      lazymatch type of x with
      | option kind => first [eapply cost_implicit | eapply cost_quoted | destruct x; branch]
      | _ => destruct x; branch
      end
    | |- turn _ _ (match ?x with _ => _ end) => destruct x; branch
    | |- cost _ (when _ _) => unfold when
    | |- cost _ (parse_many_st _ _ _) => eapply cost_many; intros
    | |- cost _ (parse_many _ _) => eapply cost_parse_many
    | |- cost _ (Iter _ _ _) => eapply cost_iter; intros
    | |- cost _ (Op _ _) => eapply cost_op_eq; [cbn [op_bound]; reflexivity|intros]
    | |- cost _ (Call _ _) => eapply cost_call; intros
    | |- cost _ (prim _) => eapply cost_prim_eq; [cbn [op_bound]; reflexivity]
    | |- cost _ (parse_body _ _) => unfold parse_body
    | |- cost _ (complete _ _) => eapply cost_prim_eq; [cbn [op_bound]; reflexivity]
    | |- cost (- BIG, BIG) (fail _) => apply cost_fail
    | |- cost _ (debug_assert_site _ _) => eapply cost_prim_eq; [cbn [op_bound]; reflexivity]
    | |- cost _ explicitly_consume_trivia => eapply cost_prim_eq; [cbn [op_bound]; reflexivity]
    | |- cost _ _ => solve [eauto with cost nocore]
    end.
  Ltac costs := cbv beta iota zeta; repeat (cost1; cbv beta iota zeta).

  Lemma q_at__ex : { w : bound | forall k, cost w (at_ k) }.
  Proof. eexists; intros; unfold at_; costs. Unshelve. all: exact never. Defined.
  Definition bnd_at_ : bound := Eval lazy in proj1_sig q_at__ex.
  Lemma q_at_ : forall k, cost bnd_at_ (at_ k).
  Proof. exact (proj2_sig q_at__ex). Qed.
  #[local] Hint Resolve q_at_ : cost.

  Lemma q_at_set_ex : { w : bound | forall s, cost w (at_set s) }.
  Proof. eexists; intros; unfold at_set; costs. Unshelve. all: exact never. Defined.
  Definition bnd_at_set : bound := Eval lazy in proj1_sig q_at_set_ex.
  Lemma q_at_set : forall s, cost bnd_at_set (at_set s).
  Proof. exact (proj2_sig q_at_set_ex). Qed.
  #[local] Hint Resolve q_at_set : cost.

  Lemma q_at_end_ex : { w : bound | cost w at_end }.
  Proof. eexists; intros; unfold at_end; costs. Unshelve. all: exact never. Defined.
  Definition bnd_at_end : bound := Eval lazy in proj1_sig q_at_end_ex.
  Lemma q_at_end : cost bnd_at_end at_end.
  Proof. exact (proj2_sig q_at_end_ex). Qed.
  #[local] Hint Resolve q_at_end : cost.

  Lemma q_at_following_ex : { w : bound | forall s, cost w (at_following s) }.
  Proof. eexists; intros; unfold at_following; costs. Unshelve. all: exact never. Defined.
  Definition bnd_at_following : bound := Eval lazy in proj1_sig q_at_following_ex.
  Lemma q_at_following : forall s, cost bnd_at_following (at_following s).
  Proof. exact (proj2_sig q_at_following_ex). Qed.
  #[local] Hint Resolve q_at_following : cost.

  Lemma q_at_following_content_ex : { w : bound | forall s, cost w (at_following_content s) }.
  Proof. eexists; intros; unfold at_following_content; costs. Unshelve. all: exact never. Defined.
  Definition bnd_at_following_content : bound := Eval lazy in proj1_sig q_at_following_content_ex.
  Lemma q_at_following_content : forall s, cost bnd_at_following_content (at_following_content s).
  Proof. exact (proj2_sig q_at_following_content_ex). Qed.
  #[local] Hint Resolve q_at_following_content : cost.

  Lemma q_at_twig_tag_ex : { w : bound | forall k, cost w (at_twig_tag k) }.
  Proof. eexists; intros; unfold at_twig_tag; costs. Unshelve. all: exact never. Defined.
  Definition bnd_at_twig_tag : bound := Eval lazy in proj1_sig q_at_twig_tag_ex.
  Lemma q_at_twig_tag : forall k, cost bnd_at_twig_tag (at_twig_tag k).
  Proof. exact (proj2_sig q_at_twig_tag_ex). Qed.
  #[local] Hint Resolve q_at_twig_tag : cost.

  Lemma q_at_twig_block_open_ex : { w : bound | cost w at_twig_block_open }.
  Proof. eexists; intros; unfold at_twig_block_open; costs. Unshelve. all: exact never. Defined.
  Definition bnd_at_twig_block_open : bound := Eval lazy in proj1_sig q_at_twig_block_open_ex.
  Lemma q_at_twig_block_open : cost bnd_at_twig_block_open at_twig_block_open.
  Proof. exact (proj2_sig q_at_twig_block_open_ex). Qed.
  #[local] Hint Resolve q_at_twig_block_open : cost.

  Lemma q_at_twig_block_close_ex : { w : bound | cost w at_twig_block_close }.
  Proof. eexists; intros; unfold at_twig_block_close; costs. Unshelve. all: exact never. Defined.
  Definition bnd_at_twig_block_close : bound := Eval lazy in proj1_sig q_at_twig_block_close_ex.
  Lemma q_at_twig_block_close : cost bnd_at_twig_block_close at_twig_block_close.
  Proof. exact (proj2_sig q_at_twig_block_close_ex). Qed.
  #[local] Hint Resolve q_at_twig_block_close : cost.

  Lemma q_at_twig_var_open_ex : { w : bound | cost w at_twig_var_open }.
  Proof. eexists; intros; unfold at_twig_var_open; costs. Unshelve. all: exact never. Defined.
  Definition bnd_at_twig_var_open : bound := Eval lazy in proj1_sig q_at_twig_var_open_ex.
  Lemma q_at_twig_var_open : cost bnd_at_twig_var_open at_twig_var_open.
  Proof. exact (proj2_sig q_at_twig_var_open_ex). Qed.
  #[local] Hint Resolve q_at_twig_var_open : cost.

  Lemma q_at_twig_comment_open_ex : { w : bound | cost w at_twig_comment_open }.
  Proof. eexists; intros; unfold at_twig_comment_open; costs. Unshelve. all: exact never. Defined.
  Definition bnd_at_twig_comment_open : bound := Eval lazy in proj1_sig q_at_twig_comment_open_ex.
  Lemma q_at_twig_comment_open : cost bnd_at_twig_comment_open at_twig_comment_open.
  Proof. exact (proj2_sig q_at_twig_comment_open_ex). Qed.
  #[local] Hint Resolve q_at_twig_comment_open : cost.

  Lemma q_peek_token_ex : { w : bound | cost w peek_token }.
  Proof. eexists; intros; unfold peek_token; costs. Unshelve. all: exact never. Defined.
  Definition bnd_peek_token : bound := Eval lazy in proj1_sig q_peek_token_ex.
  Lemma q_peek_token : cost bnd_peek_token peek_token.
  Proof. exact (proj2_sig q_peek_token_ex). Qed.
  #[local] Hint Resolve q_peek_token : cost.

  Lemma q_peek_nth_token_ex : { w : bound | forall n, cost w (peek_nth_token n) }.
  Proof. eexists; intros; unfold peek_nth_token; costs. Unshelve. all: exact never. Defined.
  Definition bnd_peek_nth_token : bound := Eval lazy in proj1_sig q_peek_nth_token_ex.
  Lemma q_peek_nth_token : forall n, cost bnd_peek_nth_token (peek_nth_token n).
  Proof. exact (proj2_sig q_peek_nth_token_ex). Qed.
  #[local] Hint Resolve q_peek_nth_token : cost.

  Lemma q_get_pos_ex : { w : bound | cost w get_pos }.
  Proof. eexists; intros; unfold get_pos; costs. Unshelve. all: exact never. Defined.
  Definition bnd_get_pos : bound := Eval lazy in proj1_sig q_get_pos_ex.
  Lemma q_get_pos : cost bnd_get_pos get_pos.
  Proof. exact (proj2_sig q_get_pos_ex). Qed.
  #[local] Hint Resolve q_get_pos : cost.

  Lemma q_bump_ex : { w : bound | cost w bump }.
  Proof. eexists; intros; unfold bump; costs. Unshelve. all: exact never. Defined.
  Definition bnd_bump : bound := Eval lazy in proj1_sig q_bump_ex.
  Lemma q_bump : cost bnd_bump bump.
  Proof. exact (proj2_sig q_bump_ex). Qed.
  #[local] Hint Resolve q_bump : cost.

  Lemma q_bump_site_ex : { w : bound | forall s, cost w (bump_site s) }.
  Proof. eexists; intros; unfold bump_site; costs. Unshelve. all: exact never. Defined.
  Definition bnd_bump_site : bound := Eval lazy in proj1_sig q_bump_site_ex.
  Lemma q_bump_site : forall s, cost bnd_bump_site (bump_site s).
  Proof. exact (proj2_sig q_bump_site_ex). Qed.
  #[local] Hint Resolve q_bump_site : cost.

  Lemma q_bump_as_ex : { w : bound | forall k, cost w (bump_as k) }.
  Proof. eexists; intros; unfold bump_as; costs. Unshelve. all: exact never. Defined.
  Definition bnd_bump_as : bound := Eval lazy in proj1_sig q_bump_as_ex.
  Lemma q_bump_as : forall k, cost bnd_bump_as (bump_as k).
  Proof. exact (proj2_sig q_bump_as_ex). Qed.
  #[local] Hint Resolve q_bump_as : cost.

  Lemma q_bump_next_n_as_ex : { w : bound | forall n k, cost w (bump_next_n_as n k) }.
  Proof. eexists; intros; unfold bump_next_n_as; costs. Unshelve. all: exact never. Defined.
  Definition bnd_bump_next_n_as : bound := Eval lazy in proj1_sig q_bump_next_n_as_ex.
  Lemma q_bump_next_n_as : forall n k, cost bnd_bump_next_n_as (bump_next_n_as n k).
  Proof. exact (proj2_sig q_bump_next_n_as_ex). Qed.
  #[local] Hint Resolve q_bump_next_n_as : cost.

  Lemma q_start_ex : { w : bound | cost w start }.
  Proof. eexists; intros; unfold start; costs. Unshelve. all: exact never. Defined.
  Definition bnd_start : bound := Eval lazy in proj1_sig q_start_ex.
  Lemma q_start : cost bnd_start start.
  Proof. exact (proj2_sig q_start_ex). Qed.
  #[local] Hint Resolve q_start : cost.

  Lemma q_precede_ex : { w : bound | forall c, cost w (precede c) }.
  Proof. eexists; intros; unfold precede; costs. Unshelve. all: exact never. Defined.
  Definition bnd_precede : bound := Eval lazy in proj1_sig q_precede_ex.
  Lemma q_precede : forall c, cost bnd_precede (precede c).
  Proof. exact (proj2_sig q_precede_ex). Qed.
  #[local] Hint Resolve q_precede : cost.

  Lemma q_fail_ex : { w : bound | forall B p, cost w (@fail B p) }.
  Proof. eexists; intros; unfold fail; costs. Unshelve. all: exact never. Defined.
  Definition bnd_fail : bound := Eval lazy in proj1_sig q_fail_ex.
  Lemma q_fail : forall B p, cost bnd_fail (@fail B p).
  Proof. exact (proj2_sig q_fail_ex). Qed.
  #[local] Hint Resolve q_fail : cost.

  Lemma q_debug_assert_ex : { w : bound | forall f, cost w (debug_assert f) }.
  Proof. eexists; intros; unfold debug_assert; costs. Unshelve. all: exact never. Defined.
  Definition bnd_debug_assert : bound := Eval lazy in proj1_sig q_debug_assert_ex.
  Lemma q_debug_assert : forall f, cost bnd_debug_assert (debug_assert f).
  Proof. exact (proj2_sig q_debug_assert_ex). Qed.
  #[local] Hint Resolve q_debug_assert : cost.

  Lemma q_add_error_ex : { w : bound | forall e, cost w (add_error e) }.
  Proof. eexists; intros; unfold add_error; costs. Unshelve. all: exact never. Defined.
  Definition bnd_add_error : bound := Eval lazy in proj1_sig q_add_error_ex.
  Lemma q_add_error : forall e, cost bnd_add_error (add_error e).
  Proof. exact (proj2_sig q_add_error_ex). Qed.
  #[local] Hint Resolve q_add_error : cost.

  Lemma q_add_error_t_ex : { w : bound | forall e, cost w (add_error_t e) }.
  Proof. eexists; intros; unfold add_error_t; costs. Unshelve. all: exact never. Defined.
  Definition bnd_add_error_t : bound := Eval lazy in proj1_sig q_add_error_t_ex.
  Lemma q_add_error_t : forall e, cost bnd_add_error_t (add_error_t e).
  Proof. exact (proj2_sig q_add_error_t_ex). Qed.
  #[local] Hint Resolve q_add_error_t : cost.

  Lemma q_add_error_at_ex : { w : bound | forall e t, cost w (add_error_at e t) }.
  Proof. eexists; intros; unfold add_error_at; costs. Unshelve. all: exact never. Defined.
  Definition bnd_add_error_at : bound := Eval lazy in proj1_sig q_add_error_at_ex.
  Lemma q_add_error_at : forall e t, cost bnd_add_error_at (add_error_at e t).
  Proof. exact (proj2_sig q_add_error_at_ex). Qed.
  #[local] Hint Resolve q_add_error_at : cost.

  Lemma q_recover_expect_ex : { w : bound | forall expected set, cost w (recover_expect expected set) }.
  Proof. eexists; intros; unfold recover_expect; costs. Unshelve. all: exact never. Defined.
  Definition bnd_recover_expect : bound := Eval lazy in proj1_sig q_recover_expect_ex.
  Lemma q_recover_expect : forall expected set, cost bnd_recover_expect (recover_expect expected set).
  Proof. exact (proj2_sig q_recover_expect_ex). Qed.
  #[local] Hint Resolve q_recover_expect : cost.

  Lemma q_recover_ex : { w : bound | forall set, cost w (recover set) }.
  Proof. eexists; intros; unfold recover; costs. Unshelve. all: exact never. Defined.
  Definition bnd_recover : bound := Eval lazy in proj1_sig q_recover_ex.
  Lemma q_recover : forall set, cost bnd_recover (recover set).
  Proof. exact (proj2_sig q_recover_ex). Qed.
  #[local] Hint Resolve q_recover : cost.

  Lemma q_display_ex : { w : bound | forall k, cost w (display k) }.
  Proof. eexists; intros; unfold display; costs. Unshelve. all: exact never. Defined.
  Definition bnd_display : bound := Eval lazy in proj1_sig q_display_ex.
  Lemma q_display : forall k, cost bnd_display (display k).
  Proof. exact (proj2_sig q_display_ex). Qed.
  #[local] Hint Resolve q_display : cost.

  (** The message for several expected kinds is put together without asking the parser. *)
  Lemma q_display_or : forall ks, cost (0, BIG) (display_or ks).
  Proof. 
    assert (D : forall k, cost (0, BIG) (display k)) by (intros k; eapply cost_within; [apply q_display|vm_compute; reflexivity]).
    induction ks as [|k ks IH]; [apply cost_ret|]. cbn [display_or]. destruct ks; [apply D|].
    eapply cost_within; [apply cost_bind; [apply D|intros; apply cost_bind; [exact IH|intros; apply cost_ret]]|]. vm_compute. reflexivity.
  Qed.
  #[local] Hint Resolve q_display_or : cost.

  Lemma q_expect_ex : { w : bound | forall k set, cost w (expect k set) }.
  Proof. eexists; intros; unfold expect; costs. Unshelve. all: exact never. Defined.
  Definition bnd_expect : bound := Eval lazy in proj1_sig q_expect_ex.
  Lemma q_expect : forall k set, cost bnd_expect (expect k set).
  Proof. exact (proj2_sig q_expect_ex). Qed.
  #[local] Hint Resolve q_expect : cost.

  Lemma q_expect_any_ex : { w : bound | forall ks set, cost w (expect_any ks set) }.
  Proof. eexists; intros; unfold expect_any; costs. Unshelve. all: exact never. Defined.
  Definition bnd_expect_any : bound := Eval lazy in proj1_sig q_expect_any_ex.
  Lemma q_expect_any : forall ks set, cost bnd_expect_any (expect_any ks set).
  Proof. exact (proj2_sig q_expect_any_ex). Qed.
  #[local] Hint Resolve q_expect_any : cost.

  Lemma q_parse_twig_expression_binding_power_ex : { w : bound | forall bp, cost w (parse_twig_expression_binding_power bp) }.
  Proof. eexists; intros; unfold parse_twig_expression_binding_power; costs. Unshelve. all: exact never. Defined.
  Definition bnd_parse_twig_expression_binding_power : bound := Eval lazy in proj1_sig q_parse_twig_expression_binding_power_ex.
  Lemma q_parse_twig_expression_binding_power : forall bp, cost bnd_parse_twig_expression_binding_power (parse_twig_expression_binding_power bp).
  Proof. exact (proj2_sig q_parse_twig_expression_binding_power_ex). Qed.
  #[local] Hint Resolve q_parse_twig_expression_binding_power : cost.

  Lemma q_parse_twig_expression_ex : { w : bound | cost w parse_twig_expression }.
  Proof. eexists; intros; unfold parse_twig_expression; costs. Unshelve. all: exact never. Defined.
  Definition bnd_parse_twig_expression : bound := Eval lazy in proj1_sig q_parse_twig_expression_ex.
  Lemma q_parse_twig_expression : cost bnd_parse_twig_expression parse_twig_expression.
  Proof. exact (proj2_sig q_parse_twig_expression_ex). Qed.
  #[local] Hint Resolve q_parse_twig_expression : cost.

  Lemma q_parse_twig_name_ex : { w : bound | cost w parse_twig_name }.
  Proof. eexists; intros; unfold parse_twig_name; costs. Unshelve. all: exact never. Defined.
  Definition bnd_parse_twig_name : bound := Eval lazy in proj1_sig q_parse_twig_name_ex.
  Lemma q_parse_twig_name : cost bnd_parse_twig_name parse_twig_name.
  Proof. exact (proj2_sig q_parse_twig_name_ex). Qed.
  #[local] Hint Resolve q_parse_twig_name : cost.

  Lemma q_parse_twig_number_ex : { w : bound | cost w parse_twig_number }.
  Proof. eexists; intros; unfold parse_twig_number; costs. Unshelve. all: exact never. Defined.
  Definition bnd_parse_twig_number : bound := Eval lazy in proj1_sig q_parse_twig_number_ex.
  Lemma q_parse_twig_number : cost bnd_parse_twig_number parse_twig_number.
  Proof. exact (proj2_sig q_parse_twig_number_ex). Qed.
  #[local] Hint Resolve q_parse_twig_number : cost.

  Lemma q_parse_twig_null_ex : { w : bound | cost w parse_twig_null }.
  Proof. eexists; intros; unfold parse_twig_null; costs. Unshelve. all: exact never. Defined.
  Definition bnd_parse_twig_null : bound := Eval lazy in proj1_sig q_parse_twig_null_ex.
  Lemma q_parse_twig_null : cost bnd_parse_twig_null parse_twig_null.
  Proof. exact (proj2_sig q_parse_twig_null_ex). Qed.
  #[local] Hint Resolve q_parse_twig_null : cost.

  Lemma q_parse_twig_boolean_ex : { w : bound | cost w parse_twig_boolean }.
  Proof. eexists; intros; unfold parse_twig_boolean; costs. Unshelve. all: exact never. Defined.
  Definition bnd_parse_twig_boolean : bound := Eval lazy in proj1_sig q_parse_twig_boolean_ex.
  Lemma q_parse_twig_boolean : cost bnd_parse_twig_boolean parse_twig_boolean.
  Proof. exact (proj2_sig q_parse_twig_boolean_ex). Qed.
  #[local] Hint Resolve q_parse_twig_boolean : cost.

  Lemma q_twig_string_child_ex : { w : bound | forall quote_kind interpolation_allowed, cost w (twig_string_child quote_kind interpolation_allowed) }.
  Proof. eexists; intros; unfold twig_string_child; costs. Unshelve. all: exact never. Defined.
  Definition bnd_twig_string_child : bound := Eval lazy in proj1_sig q_twig_string_child_ex.
  Lemma q_twig_string_child : forall quote_kind interpolation_allowed, cost bnd_twig_string_child (twig_string_child quote_kind interpolation_allowed).
  Proof. exact (proj2_sig q_twig_string_child_ex). Qed.
  #[local] Hint Resolve q_twig_string_child : cost.

  Lemma q_parse_twig_string_ex : { w : bound | forall interpolation_allowed, cost w (parse_twig_string interpolation_allowed) }.
  Proof. eexists; intros; unfold parse_twig_string; costs. Unshelve. all: exact never. Defined.
  Definition bnd_parse_twig_string : bound := Eval lazy in proj1_sig q_parse_twig_string_ex.
  Lemma q_parse_twig_string : forall interpolation_allowed, cost bnd_parse_twig_string (parse_twig_string interpolation_allowed).
  Proof. exact (proj2_sig q_parse_twig_string_ex). Qed.
  #[local] Hint Resolve q_parse_twig_string : cost.

  Lemma q_parse_twig_array_ex : { w : bound | cost w parse_twig_array }.
  Proof. eexists; intros; unfold parse_twig_array; costs. Unshelve. all: exact never. Defined.
  Definition bnd_parse_twig_array : bound := Eval lazy in proj1_sig q_parse_twig_array_ex.
  Lemma q_parse_twig_array : cost bnd_parse_twig_array parse_twig_array.
  Proof. exact (proj2_sig q_parse_twig_array_ex). Qed.
  #[local] Hint Resolve q_parse_twig_array : cost.

  Lemma q_parse_twig_hash_key_ex : { w : bound | cost w parse_twig_hash_key }.
  Proof. eexists; intros; unfold parse_twig_hash_key; costs. Unshelve. all: exact never. Defined.
  Definition bnd_parse_twig_hash_key : bound := Eval lazy in proj1_sig q_parse_twig_hash_key_ex.
  Lemma q_parse_twig_hash_key : cost bnd_parse_twig_hash_key parse_twig_hash_key.
  Proof. exact (proj2_sig q_parse_twig_hash_key_ex). Qed.
  #[local] Hint Resolve q_parse_twig_hash_key : cost.

  Lemma q_parse_twig_hash_pair_ex : { w : bound | cost w parse_twig_hash_pair }.
  Proof. eexists; intros; unfold parse_twig_hash_pair; costs. Unshelve. all: exact never. Defined.
  Definition bnd_parse_twig_hash_pair : bound := Eval lazy in proj1_sig q_parse_twig_hash_pair_ex.
  Lemma q_parse_twig_hash_pair : cost bnd_parse_twig_hash_pair parse_twig_hash_pair.
  Proof. exact (proj2_sig q_parse_twig_hash_pair_ex). Qed.
  #[local] Hint Resolve q_parse_twig_hash_pair : cost.

  Lemma q_parse_twig_hash_ex : { w : bound | cost w parse_twig_hash }.
  Proof. eexists; intros; unfold parse_twig_hash; costs. Unshelve. all: exact never. Defined.
  Definition bnd_parse_twig_hash : bound := Eval lazy in proj1_sig q_parse_twig_hash_ex.
  Lemma q_parse_twig_hash : cost bnd_parse_twig_hash parse_twig_hash.
  Proof. exact (proj2_sig q_parse_twig_hash_ex). Qed.
  #[local] Hint Resolve q_parse_twig_hash : cost.

  Lemma q_parse_twig_function_argument_ex : { w : bound | cost w parse_twig_function_argument }.
  Proof. eexists; intros; unfold parse_twig_function_argument; costs. Unshelve. all: exact never. Defined.
  Definition bnd_parse_twig_function_argument : bound := Eval lazy in proj1_sig q_parse_twig_function_argument_ex.
  Lemma q_parse_twig_function_argument : cost bnd_parse_twig_function_argument parse_twig_function_argument.
  Proof. exact (proj2_sig q_parse_twig_function_argument_ex). Qed.
  #[local] Hint Resolve q_parse_twig_function_argument : cost.

  Lemma q_parse_arguments_ex : { w : bound | forall closing, cost w (parse_arguments closing) }.
  Proof. eexists; intros; unfold parse_arguments; costs. Unshelve. all: exact never. Defined.
  Definition bnd_parse_arguments : bound := Eval lazy in proj1_sig q_parse_arguments_ex.
  Lemma q_parse_arguments : forall closing, cost bnd_parse_arguments (parse_arguments closing).
  Proof. exact (proj2_sig q_parse_arguments_ex). Qed.
  #[local] Hint Resolve q_parse_arguments : cost.

  Lemma q_parse_twig_filter_ex : { w : bound | forall last_node, cost w (parse_twig_filter last_node) }.
  Proof. eexists; intros; unfold parse_twig_filter; costs. Unshelve. all: exact never. Defined.
  Definition bnd_parse_twig_filter : bound := Eval lazy in proj1_sig q_parse_twig_filter_ex.
  Lemma q_parse_twig_filter : forall last_node, cost bnd_parse_twig_filter (parse_twig_filter last_node).
  Proof. exact (proj2_sig q_parse_twig_filter_ex). Qed.
  #[local] Hint Resolve q_parse_twig_filter : cost.

  Lemma q_parse_twig_indexer_ex : { w : bound | forall last_node, cost w (parse_twig_indexer last_node) }.
  Proof. eexists; intros; unfold parse_twig_indexer; costs. Unshelve. all: exact never. Defined.
  Definition bnd_parse_twig_indexer : bound := Eval lazy in proj1_sig q_parse_twig_indexer_ex.
  Lemma q_parse_twig_indexer : forall last_node, cost bnd_parse_twig_indexer (parse_twig_indexer last_node).
  Proof. exact (proj2_sig q_parse_twig_indexer_ex). Qed.
  #[local] Hint Resolve q_parse_twig_indexer : cost.

  Lemma q_parse_twig_function_ex : { w : bound | forall last_node, cost w (parse_twig_function last_node) }.
  Proof. eexists; intros; unfold parse_twig_function; costs. Unshelve. all: exact never. Defined.
  Definition bnd_parse_twig_function : bound := Eval lazy in proj1_sig q_parse_twig_function_ex.
  Lemma q_parse_twig_function : forall last_node, cost bnd_parse_twig_function (parse_twig_function last_node).
  Proof. exact (proj2_sig q_parse_twig_function_ex). Qed.
  #[local] Hint Resolve q_parse_twig_function : cost.

  Lemma q_parse_twig_accessor_ex : { w : bound | forall last_node, cost w (parse_twig_accessor last_node) }.
  Proof. eexists; intros; unfold parse_twig_accessor; costs. Unshelve. all: exact never. Defined.
  Definition bnd_parse_twig_accessor : bound := Eval lazy in proj1_sig q_parse_twig_accessor_ex.
  Lemma q_parse_twig_accessor : forall last_node, cost bnd_parse_twig_accessor (parse_twig_accessor last_node).
  Proof. exact (proj2_sig q_parse_twig_accessor_ex). Qed.
  #[local] Hint Resolve q_parse_twig_accessor : cost.

  Lemma q_parse_twig_test_implicit_argument_ex : { w : bound | forall last_node, cost w (parse_twig_test_implicit_argument last_node) }.
  Proof. eexists; intros; unfold parse_twig_test_implicit_argument; costs. Unshelve. all: exact never. Defined.
  Definition bnd_parse_twig_test_implicit_argument : bound := Eval lazy in proj1_sig q_parse_twig_test_implicit_argument_ex.
  Lemma q_parse_twig_test_implicit_argument : forall last_node, cost bnd_parse_twig_test_implicit_argument (parse_twig_test_implicit_argument last_node).
  Proof. exact (proj2_sig q_parse_twig_test_implicit_argument_ex). Qed.
  #[local] Hint Resolve q_parse_twig_test_implicit_argument : cost.

  Lemma q_parse_twig_arrow_function_ex : { w : bound | forall last_node, cost w (parse_twig_arrow_function last_node) }.
  Proof. eexists; intros; unfold parse_twig_arrow_function; costs. Unshelve. all: exact never. Defined.
  Definition bnd_parse_twig_arrow_function : bound := Eval lazy in proj1_sig q_parse_twig_arrow_function_ex.
  Lemma q_parse_twig_arrow_function : forall last_node, cost bnd_parse_twig_arrow_function (parse_twig_arrow_function last_node).
  Proof. exact (proj2_sig q_parse_twig_arrow_function_ex). Qed.
  #[local] Hint Resolve q_parse_twig_arrow_function : cost.

  Lemma q_parse_postfix_operators_ex : { w : bound | forall node, cost w (parse_postfix_operators node) }.
  Proof. eexists; intros; unfold parse_postfix_operators; costs. Unshelve. all: exact never. Defined.
  Definition bnd_parse_postfix_operators : bound := Eval lazy in proj1_sig q_parse_postfix_operators_ex.
  Lemma q_parse_postfix_operators : forall node, cost bnd_parse_postfix_operators (parse_postfix_operators node).
  Proof. exact (proj2_sig q_parse_postfix_operators_ex). Qed.
  #[local] Hint Resolve q_parse_postfix_operators : cost.

  Lemma q_parse_twig_literal_ex : { w : bound | cost w parse_twig_literal }.
  Proof. eexists; intros; unfold parse_twig_literal; costs. Unshelve. all: exact never. Defined.
  Definition bnd_parse_twig_literal : bound := Eval lazy in proj1_sig q_parse_twig_literal_ex.
  Lemma q_parse_twig_literal : cost bnd_parse_twig_literal parse_twig_literal.
  Proof. exact (proj2_sig q_parse_twig_literal_ex). Qed.
  #[local] Hint Resolve q_parse_twig_literal : cost.

  Lemma q_parse_conditional_expression_ex : { w : bound | forall lhs, cost w (parse_conditional_expression lhs) }.
  Proof. eexists; intros; unfold parse_conditional_expression; costs. Unshelve. all: exact never. Defined.
  Definition bnd_parse_conditional_expression : bound := Eval lazy in proj1_sig q_parse_conditional_expression_ex.
  Lemma q_parse_conditional_expression : forall lhs, cost bnd_parse_conditional_expression (parse_conditional_expression lhs).
  Proof. exact (proj2_sig q_parse_conditional_expression_ex). Qed.
  #[local] Hint Resolve q_parse_conditional_expression : cost.

  Lemma q_binary_loop_ex : { w : bound | forall minimum_binding_power lhs, cost w (binary_loop minimum_binding_power lhs) }.
  Proof. eexists; intros; unfold binary_loop; costs. Unshelve. all: exact never. Defined.
  Definition bnd_binary_loop : bound := Eval lazy in proj1_sig q_binary_loop_ex.
  Lemma q_binary_loop : forall minimum_binding_power lhs, cost bnd_binary_loop (binary_loop minimum_binding_power lhs).
  Proof. exact (proj2_sig q_binary_loop_ex). Qed.
  #[local] Hint Resolve q_binary_loop : cost.

  Lemma q_parse_twig_expression_binding_power_rhs_ex : { w : bound | forall minimum_binding_power lhs, cost w (parse_twig_expression_binding_power_rhs minimum_binding_power lhs) }.
  Proof. eexists; intros; unfold parse_twig_expression_binding_power_rhs; costs. Unshelve. all: exact never. Defined.
  Definition bnd_parse_twig_expression_binding_power_rhs : bound := Eval lazy in proj1_sig q_parse_twig_expression_binding_power_rhs_ex.
  Lemma q_parse_twig_expression_binding_power_rhs : forall minimum_binding_power lhs, cost bnd_parse_twig_expression_binding_power_rhs (parse_twig_expression_binding_power_rhs minimum_binding_power lhs).
  Proof. exact (proj2_sig q_parse_twig_expression_binding_power_rhs_ex). Qed.
  #[local] Hint Resolve q_parse_twig_expression_binding_power_rhs : cost.

  Lemma q_parse_paren_expression_ex : { w : bound | cost w parse_paren_expression }.
  Proof. eexists; intros; unfold parse_paren_expression; costs. Unshelve. all: exact never. Defined.
  Definition bnd_parse_paren_expression : bound := Eval lazy in proj1_sig q_parse_paren_expression_ex.
  Lemma q_parse_paren_expression : cost bnd_parse_paren_expression parse_paren_expression.
  Proof. exact (proj2_sig q_parse_paren_expression_ex). Qed.
  #[local] Hint Resolve q_parse_paren_expression : cost.

  Lemma q_parse_paren_arrow_function_ex : { w : bound | forall m, cost w (parse_paren_arrow_function m) }.
  Proof. eexists; intros; unfold parse_paren_arrow_function; costs. Unshelve. all: exact never. Defined.
  Definition bnd_parse_paren_arrow_function : bound := Eval lazy in proj1_sig q_parse_paren_arrow_function_ex.
  Lemma q_parse_paren_arrow_function : forall m, cost bnd_parse_paren_arrow_function (parse_paren_arrow_function m).
  Proof. exact (proj2_sig q_parse_paren_arrow_function_ex). Qed.
  #[local] Hint Resolve q_parse_paren_arrow_function : cost.

  Lemma q_parse_unary_expression_ex : { w : bound | cost w parse_unary_expression }.
  Proof. eexists; intros; unfold parse_unary_expression; costs. Unshelve. all: exact never. Defined.
  Definition bnd_parse_unary_expression : bound := Eval lazy in proj1_sig q_parse_unary_expression_ex.
  Lemma q_parse_unary_expression : cost bnd_parse_unary_expression parse_unary_expression.
  Proof. exact (proj2_sig q_parse_unary_expression_ex). Qed.
  #[local] Hint Resolve q_parse_unary_expression : cost.

  Lemma q_parse_twig_expression_lhs_ex : { w : bound | cost w parse_twig_expression_lhs }.
  Proof. eexists; intros; unfold parse_twig_expression_lhs; costs. Unshelve. all: exact never. Defined.
  Definition bnd_parse_twig_expression_lhs : bound := Eval lazy in proj1_sig q_parse_twig_expression_lhs_ex.
  Lemma q_parse_twig_expression_lhs : cost bnd_parse_twig_expression_lhs parse_twig_expression_lhs.
  Proof. exact (proj2_sig q_parse_twig_expression_lhs_ex). Qed.
  #[local] Hint Resolve q_parse_twig_expression_lhs : cost.

  Lemma q_body_expression_ex : { w : bound | forall minimum_binding_power, cost w (body_expression minimum_binding_power) }.
  Proof. eexists; intros; unfold body_expression; costs. Unshelve. all: exact never. Defined.
  Definition bnd_body_expression : bound := Eval lazy in proj1_sig q_body_expression_ex.
  Lemma q_body_expression : forall minimum_binding_power, cost bnd_body_expression (body_expression minimum_binding_power).
  Proof. exact (proj2_sig q_body_expression_ex). Qed.
  #[local] Hint Resolve q_body_expression : cost.

  Lemma q_at_twig_termination_tag_ex : { w : bound | cost w at_twig_termination_tag }.
  Proof. eexists; intros; unfold at_twig_termination_tag; costs. Unshelve. all: exact never. Defined.
  Definition bnd_at_twig_termination_tag : bound := Eval lazy in proj1_sig q_at_twig_termination_tag_ex.
  Lemma q_at_twig_termination_tag : cost bnd_at_twig_termination_tag at_twig_termination_tag.
  Proof. exact (proj2_sig q_at_twig_termination_tag_ex). Qed.
  #[local] Hint Resolve q_at_twig_termination_tag : cost.

  Lemma q_call_child_ex : { w : bound | forall f, cost w (call_child f) }.
  Proof. eexists; intros; unfold call_child; costs. Unshelve. all: exact never. Defined.
  Definition bnd_call_child : bound := Eval lazy in proj1_sig q_call_child_ex.
  Lemma q_call_child : forall f, cost bnd_call_child (call_child f).
  Proof. exact (proj2_sig q_call_child_ex). Qed.
  #[local] Hint Resolve q_call_child : cost.

  Lemma q_parse_ending_ex : { w : bound | forall kw r1 r2 r3 node, cost w (parse_ending kw r1 r2 r3 node) }.
  Proof. eexists; intros; unfold parse_ending; costs. Unshelve. all: exact never. Defined.
  Definition bnd_parse_ending : bound := Eval lazy in proj1_sig q_parse_ending_ex.
  Lemma q_parse_ending : forall kw r1 r2 r3 node, cost bnd_parse_ending (parse_ending kw r1 r2 r3 node).
  Proof. exact (proj2_sig q_parse_ending_ex). Qed.
  #[local] Hint Resolve q_parse_ending : cost.

  Lemma q_expression_or_ex : { w : bound | forall msg set, cost w (expression_or msg set) }.
  Proof. eexists; intros; unfold expression_or; costs. Unshelve. all: exact never. Defined.
  Definition bnd_expression_or : bound := Eval lazy in proj1_sig q_expression_or_ex.
  Lemma q_expression_or : forall msg set, cost bnd_expression_or (expression_or msg set).
  Proof. exact (proj2_sig q_expression_or_ex). Qed.
  #[local] Hint Resolve q_expression_or : cost.

  Lemma q_name_or_ex : { w : bound | forall msg set, cost w (name_or msg set) }.
  Proof. eexists; intros; unfold name_or; costs. Unshelve. all: exact never. Defined.
  Definition bnd_name_or : bound := Eval lazy in proj1_sig q_name_or_ex.
  Lemma q_name_or : forall msg set, cost bnd_name_or (name_or msg set).
  Proof. exact (proj2_sig q_name_or_ex). Qed.
  #[local] Hint Resolve q_name_or : cost.

  Lemma q_string_or_ex : { w : bound | forall msg set, cost w (string_or msg set) }.
  Proof. eexists; intros; unfold string_or; costs. Unshelve. all: exact never. Defined.
  Definition bnd_string_or : bound := Eval lazy in proj1_sig q_string_or_ex.
  Lemma q_string_or : forall msg set, cost bnd_string_or (string_or msg set).
  Proof. exact (proj2_sig q_string_or_ex). Qed.
  #[local] Hint Resolve q_string_or : cost.

  Lemma q_opt_bump_ex : { w : bound | forall k, cost w (opt_bump k) }.
  Proof. eexists; intros; unfold opt_bump; costs. Unshelve. all: exact never. Defined.
  Definition bnd_opt_bump : bound := Eval lazy in proj1_sig q_opt_bump_ex.
  Lemma q_opt_bump : forall k, cost bnd_opt_bump (opt_bump k).
  Proof. exact (proj2_sig q_opt_bump_ex). Qed.
  #[local] Hint Resolve q_opt_bump : cost.

  Lemma q_parse_twig_cache_ex : { w : bound | forall outer child, cost w (parse_twig_cache outer child) }.
  Proof. eexists; intros; unfold parse_twig_cache; costs. Unshelve. all: exact never. Defined.
  Definition bnd_parse_twig_cache : bound := Eval lazy in proj1_sig q_parse_twig_cache_ex.
  Lemma q_parse_twig_cache : forall outer child, cost bnd_parse_twig_cache (parse_twig_cache outer child).
  Proof. exact (proj2_sig q_parse_twig_cache_ex). Qed.
  #[local] Hint Resolve q_parse_twig_cache : cost.

  Lemma q_parse_twig_with_ex : { w : bound | forall outer child, cost w (parse_twig_with outer child) }.
  Proof. eexists; intros; unfold parse_twig_with; costs. Unshelve. all: exact never. Defined.
  Definition bnd_parse_twig_with : bound := Eval lazy in proj1_sig q_parse_twig_with_ex.
  Lemma q_parse_twig_with : forall outer child, cost bnd_parse_twig_with (parse_twig_with outer child).
  Proof. exact (proj2_sig q_parse_twig_with_ex). Qed.
  #[local] Hint Resolve q_parse_twig_with : cost.

  Lemma q_parse_end_name_ex : { w : bound | forall what name, cost w (parse_end_name what name) }.
  Proof. eexists; intros; unfold parse_end_name; costs. Unshelve. all: exact never. Defined.
  Definition bnd_parse_end_name : bound := Eval lazy in proj1_sig q_parse_end_name_ex.
  Lemma q_parse_end_name : forall what name, cost bnd_parse_end_name (parse_end_name what name).
  Proof. exact (proj2_sig q_parse_end_name_ex). Qed.
  #[local] Hint Resolve q_parse_end_name : cost.

  Lemma q_parse_twig_macro_ex : { w : bound | forall outer child, cost w (parse_twig_macro outer child) }.
  Proof. eexists; intros; unfold parse_twig_macro; costs. Unshelve. all: exact never. Defined.
  Definition bnd_parse_twig_macro : bound := Eval lazy in proj1_sig q_parse_twig_macro_ex.
  Lemma q_parse_twig_macro : forall outer child, cost bnd_parse_twig_macro (parse_twig_macro outer child).
  Proof. exact (proj2_sig q_parse_twig_macro_ex). Qed.
  #[local] Hint Resolve q_parse_twig_macro : cost.

  Lemma q_parse_twig_verbatim_ex : { w : bound | forall outer child, cost w (parse_twig_verbatim outer child) }.
  Proof. eexists; intros; unfold parse_twig_verbatim; costs. Unshelve. all: exact never. Defined.
  Definition bnd_parse_twig_verbatim : bound := Eval lazy in proj1_sig q_parse_twig_verbatim_ex.
  Lemma q_parse_twig_verbatim : forall outer child, cost bnd_parse_twig_verbatim (parse_twig_verbatim outer child).
  Proof. exact (proj2_sig q_parse_twig_verbatim_ex). Qed.
  #[local] Hint Resolve q_parse_twig_verbatim : cost.

  Lemma q_parse_twig_sandbox_ex : { w : bound | forall outer child, cost w (parse_twig_sandbox outer child) }.
  Proof. eexists; intros; unfold parse_twig_sandbox; costs. Unshelve. all: exact never. Defined.
  Definition bnd_parse_twig_sandbox : bound := Eval lazy in proj1_sig q_parse_twig_sandbox_ex.
  Lemma q_parse_twig_sandbox : forall outer child, cost bnd_parse_twig_sandbox (parse_twig_sandbox outer child).
  Proof. exact (proj2_sig q_parse_twig_sandbox_ex). Qed.
  #[local] Hint Resolve q_parse_twig_sandbox : cost.

  Lemma q_parse_twig_flush_ex : { w : bound | forall outer, cost w (parse_twig_flush outer) }.
  Proof. eexists; intros; unfold parse_twig_flush; costs. Unshelve. all: exact never. Defined.
  Definition bnd_parse_twig_flush : bound := Eval lazy in proj1_sig q_parse_twig_flush_ex.
  Lemma q_parse_twig_flush : forall outer, cost bnd_parse_twig_flush (parse_twig_flush outer).
  Proof. exact (proj2_sig q_parse_twig_flush_ex). Qed.
  #[local] Hint Resolve q_parse_twig_flush : cost.

  Lemma q_parse_twig_do_ex : { w : bound | forall outer, cost w (parse_twig_do outer) }.
  Proof. eexists; intros; unfold parse_twig_do; costs. Unshelve. all: exact never. Defined.
  Definition bnd_parse_twig_do : bound := Eval lazy in proj1_sig q_parse_twig_do_ex.
  Lemma q_parse_twig_do : forall outer, cost bnd_parse_twig_do (parse_twig_do outer).
  Proof. exact (proj2_sig q_parse_twig_do_ex). Qed.
  #[local] Hint Resolve q_parse_twig_do : cost.

  Lemma q_parse_twig_deprecated_ex : { w : bound | forall outer, cost w (parse_twig_deprecated outer) }.
  Proof. eexists; intros; unfold parse_twig_deprecated; costs. Unshelve. all: exact never. Defined.
  Definition bnd_parse_twig_deprecated : bound := Eval lazy in proj1_sig q_parse_twig_deprecated_ex.
  Lemma q_parse_twig_deprecated : forall outer, cost bnd_parse_twig_deprecated (parse_twig_deprecated outer).
  Proof. exact (proj2_sig q_parse_twig_deprecated_ex). Qed.
  #[local] Hint Resolve q_parse_twig_deprecated : cost.

  Lemma q_parse_twig_autoescape_ex : { w : bound | forall outer child, cost w (parse_twig_autoescape outer child) }.
  Proof. eexists; intros; unfold parse_twig_autoescape; costs. Unshelve. all: exact never. Defined.
  Definition bnd_parse_twig_autoescape : bound := Eval lazy in proj1_sig q_parse_twig_autoescape_ex.
  Lemma q_parse_twig_autoescape : forall outer child, cost bnd_parse_twig_autoescape (parse_twig_autoescape outer child).
  Proof. exact (proj2_sig q_parse_twig_autoescape_ex). Qed.
  #[local] Hint Resolve q_parse_twig_autoescape : cost.

  Lemma q_parse_twig_apply_ex : { w : bound | forall outer child, cost w (parse_twig_apply outer child) }.
  Proof. eexists; intros; unfold parse_twig_apply; costs. Unshelve. all: exact never. Defined.
  Definition bnd_parse_twig_apply : bound := Eval lazy in proj1_sig q_parse_twig_apply_ex.
  Lemma q_parse_twig_apply : forall outer child, cost bnd_parse_twig_apply (parse_twig_apply outer child).
  Proof. exact (proj2_sig q_parse_twig_apply_ex). Qed.
  #[local] Hint Resolve q_parse_twig_apply : cost.

  Lemma q_parse_twig_import_ex : { w : bound | forall outer, cost w (parse_twig_import outer) }.
  Proof. eexists; intros; unfold parse_twig_import; costs. Unshelve. all: exact never. Defined.
  Definition bnd_parse_twig_import : bound := Eval lazy in proj1_sig q_parse_twig_import_ex.
  Lemma q_parse_twig_import : forall outer, cost bnd_parse_twig_import (parse_twig_import outer).
  Proof. exact (proj2_sig q_parse_twig_import_ex). Qed.
  #[local] Hint Resolve q_parse_twig_import : cost.

  Lemma q_parse_name_as_name_override_ex : { w : bound | forall expected_description, cost w (parse_name_as_name_override expected_description) }.
  Proof. eexists; intros; unfold parse_name_as_name_override; costs. Unshelve. all: exact never. Defined.
  Definition bnd_parse_name_as_name_override : bound := Eval lazy in proj1_sig q_parse_name_as_name_override_ex.
  Lemma q_parse_name_as_name_override : forall expected_description, cost bnd_parse_name_as_name_override (parse_name_as_name_override expected_description).
  Proof. exact (proj2_sig q_parse_name_as_name_override_ex). Qed.
  #[local] Hint Resolve q_parse_name_as_name_override : cost.

  Lemma q_parse_overrides_ex : { w : bound | forall desc, cost w (parse_overrides desc) }.
  Proof. eexists; intros; unfold parse_overrides; costs. Unshelve. all: exact never. Defined.
  Definition bnd_parse_overrides : bound := Eval lazy in proj1_sig q_parse_overrides_ex.
  Lemma q_parse_overrides : forall desc, cost bnd_parse_overrides (parse_overrides desc).
  Proof. exact (proj2_sig q_parse_overrides_ex). Qed.
  #[local] Hint Resolve q_parse_overrides : cost.

  Lemma q_parse_twig_from_ex : { w : bound | forall outer, cost w (parse_twig_from outer) }.
  Proof. eexists; intros; unfold parse_twig_from; costs. Unshelve. all: exact never. Defined.
  Definition bnd_parse_twig_from : bound := Eval lazy in proj1_sig q_parse_twig_from_ex.
  Lemma q_parse_twig_from : forall outer, cost bnd_parse_twig_from (parse_twig_from outer).
  Proof. exact (proj2_sig q_parse_twig_from_ex). Qed.
  #[local] Hint Resolve q_parse_twig_from : cost.

  Lemma q_parse_twig_use_ex : { w : bound | forall outer, cost w (parse_twig_use outer) }.
  Proof. eexists; intros; unfold parse_twig_use; costs. Unshelve. all: exact never. Defined.
  Definition bnd_parse_twig_use : bound := Eval lazy in proj1_sig q_parse_twig_use_ex.
  Lemma q_parse_twig_use : forall outer, cost bnd_parse_twig_use (parse_twig_use outer).
  Proof. exact (proj2_sig q_parse_twig_use_ex). Qed.
  #[local] Hint Resolve q_parse_twig_use : cost.

  Lemma q_parse_include_with_ex : { w : bound | forall set, cost w (parse_include_with set) }.
  Proof. eexists; intros; unfold parse_include_with; costs. Unshelve. all: exact never. Defined.
  Definition bnd_parse_include_with : bound := Eval lazy in proj1_sig q_parse_include_with_ex.
  Lemma q_parse_include_with : forall set, cost bnd_parse_include_with (parse_include_with set).
  Proof. exact (proj2_sig q_parse_include_with_ex). Qed.
  #[local] Hint Resolve q_parse_include_with : cost.

  Lemma q_parse_twig_embed_ex : { w : bound | forall outer child, cost w (parse_twig_embed outer child) }.
  Proof. eexists; intros; unfold parse_twig_embed; costs. Unshelve. all: exact never. Defined.
  Definition bnd_parse_twig_embed : bound := Eval lazy in proj1_sig q_parse_twig_embed_ex.
  Lemma q_parse_twig_embed : forall outer child, cost bnd_parse_twig_embed (parse_twig_embed outer child).
  Proof. exact (proj2_sig q_parse_twig_embed_ex). Qed.
  #[local] Hint Resolve q_parse_twig_embed : cost.

  Lemma q_parse_twig_include_ex : { w : bound | forall outer, cost w (parse_twig_include outer) }.
  Proof. eexists; intros; unfold parse_twig_include; costs. Unshelve. all: exact never. Defined.
  Definition bnd_parse_twig_include : bound := Eval lazy in proj1_sig q_parse_twig_include_ex.
  Lemma q_parse_twig_include : forall outer, cost bnd_parse_twig_include (parse_twig_include outer).
  Proof. exact (proj2_sig q_parse_twig_include_ex). Qed.
  #[local] Hint Resolve q_parse_twig_include : cost.

  Lemma q_parse_twig_extends_ex : { w : bound | forall outer, cost w (parse_twig_extends outer) }.
  Proof. eexists; intros; unfold parse_twig_extends; costs. Unshelve. all: exact never. Defined.
  Definition bnd_parse_twig_extends : bound := Eval lazy in proj1_sig q_parse_twig_extends_ex.
  Lemma q_parse_twig_extends : forall outer, cost bnd_parse_twig_extends (parse_twig_extends outer).
  Proof. exact (proj2_sig q_parse_twig_extends_ex). Qed.
  #[local] Hint Resolve q_parse_twig_extends : cost.

  Lemma q_parse_twig_for_ex : { w : bound | forall outer child, cost w (parse_twig_for outer child) }.
  Proof. eexists; intros; unfold parse_twig_for; costs. Unshelve. all: exact never. Defined.
  Definition bnd_parse_twig_for : bound := Eval lazy in proj1_sig q_parse_twig_for_ex.
  Lemma q_parse_twig_for : forall outer child, cost bnd_parse_twig_for (parse_twig_for outer child).
  Proof. exact (proj2_sig q_parse_twig_for_ex). Qed.
  #[local] Hint Resolve q_parse_twig_for : cost.

  Lemma q_parse_set_assignment_ex : { w : bound | cost w parse_set_assignment }.
  Proof. eexists; intros; unfold parse_set_assignment; costs. Unshelve. all: exact never. Defined.
  Definition bnd_parse_set_assignment : bound := Eval lazy in proj1_sig q_parse_set_assignment_ex.
  Lemma q_parse_set_assignment : cost bnd_parse_set_assignment parse_set_assignment.
  Proof. exact (proj2_sig q_parse_set_assignment_ex). Qed.
  #[local] Hint Resolve q_parse_set_assignment : cost.

  Lemma q_parse_twig_set_ex : { w : bound | forall outer child, cost w (parse_twig_set outer child) }.
  Proof. eexists; intros; unfold parse_twig_set; costs. Unshelve. all: exact never. Defined.
  Definition bnd_parse_twig_set : bound := Eval lazy in proj1_sig q_parse_twig_set_ex.
  Lemma q_parse_twig_set : forall outer child, cost bnd_parse_twig_set (parse_twig_set outer child).
  Proof. exact (proj2_sig q_parse_twig_set_ex). Qed.
  #[local] Hint Resolve q_parse_twig_set : cost.

  Lemma q_parse_twig_block_ex : { w : bound | forall outer child, cost w (parse_twig_block outer child) }.
  Proof. eexists; intros; unfold parse_twig_block; costs. Unshelve. all: exact never. Defined.
  Definition bnd_parse_twig_block : bound := Eval lazy in proj1_sig q_parse_twig_block_ex.
  Lemma q_parse_twig_block : forall outer child, cost bnd_parse_twig_block (parse_twig_block outer child).
  Proof. exact (proj2_sig q_parse_twig_block_ex). Qed.
  #[local] Hint Resolve q_parse_twig_block : cost.

  Lemma q_parse_if_branches_ex : { w : bound | forall child, cost w (parse_if_branches child) }.
  Proof. eexists; intros; unfold parse_if_branches; costs. Unshelve. all: exact never. Defined.
  Definition bnd_parse_if_branches : bound := Eval lazy in proj1_sig q_parse_if_branches_ex.
  Lemma q_parse_if_branches : forall child, cost bnd_parse_if_branches (parse_if_branches child).
  Proof. exact (proj2_sig q_parse_if_branches_ex). Qed.
  #[local] Hint Resolve q_parse_if_branches : cost.

  Lemma q_parse_twig_if_ex : { w : bound | forall outer child, cost w (parse_twig_if outer child) }.
  Proof. eexists; intros; unfold parse_twig_if; costs. Unshelve. all: exact never. Defined.
  Definition bnd_parse_twig_if : bound := Eval lazy in proj1_sig q_parse_twig_if_ex.
  Lemma q_parse_twig_if : forall outer child, cost bnd_parse_twig_if (parse_twig_if outer child).
  Proof. exact (proj2_sig q_parse_twig_if_ex). Qed.
  #[local] Hint Resolve q_parse_twig_if : cost.

  Lemma q_parse_twig_trans_ex : { w : bound | forall outer child, cost w (parse_twig_trans outer child) }.
  Proof. eexists; intros; unfold parse_twig_trans; costs. Unshelve. all: exact never. Defined.
  Definition bnd_parse_twig_trans : bound := Eval lazy in proj1_sig q_parse_twig_trans_ex.
  Lemma q_parse_twig_trans : forall outer child, cost bnd_parse_twig_trans (parse_twig_trans outer child).
  Proof. exact (proj2_sig q_parse_twig_trans_ex). Qed.
  #[local] Hint Resolve q_parse_twig_trans : cost.

  Lemma q_parse_twig_props_ex : { w : bound | forall outer, cost w (parse_twig_props outer) }.
  Proof. eexists; intros; unfold parse_twig_props; costs. Unshelve. all: exact never. Defined.
  Definition bnd_parse_twig_props : bound := Eval lazy in proj1_sig q_parse_twig_props_ex.
  Lemma q_parse_twig_props : forall outer, cost bnd_parse_twig_props (parse_twig_props outer).
  Proof. exact (proj2_sig q_parse_twig_props_ex). Qed.
  #[local] Hint Resolve q_parse_twig_props : cost.

  Lemma q_parse_twig_component_ex : { w : bound | forall outer child, cost w (parse_twig_component outer child) }.
  Proof. eexists; intros; unfold parse_twig_component; costs. Unshelve. all: exact never. Defined.
  Definition bnd_parse_twig_component : bound := Eval lazy in proj1_sig q_parse_twig_component_ex.
  Lemma q_parse_twig_component : forall outer child, cost bnd_parse_twig_component (parse_twig_component outer child).
  Proof. exact (proj2_sig q_parse_twig_component_ex). Qed.
  #[local] Hint Resolve q_parse_twig_component : cost.

  Lemma q_parse_twig_sw_thumbnails_ex : { w : bound | forall outer, cost w (parse_twig_sw_thumbnails outer) }.
  Proof. eexists; intros; unfold parse_twig_sw_thumbnails; costs. Unshelve. all: exact never. Defined.
  Definition bnd_parse_twig_sw_thumbnails : bound := Eval lazy in proj1_sig q_parse_twig_sw_thumbnails_ex.
  Lemma q_parse_twig_sw_thumbnails : forall outer, cost bnd_parse_twig_sw_thumbnails (parse_twig_sw_thumbnails outer).
  Proof. exact (proj2_sig q_parse_twig_sw_thumbnails_ex). Qed.
  #[local] Hint Resolve q_parse_twig_sw_thumbnails : cost.

  Lemma q_parse_twig_sw_icon_ex : { w : bound | forall outer, cost w (parse_twig_sw_icon outer) }.
  Proof. eexists; intros; unfold parse_twig_sw_icon; costs. Unshelve. all: exact never. Defined.
  Definition bnd_parse_twig_sw_icon : bound := Eval lazy in proj1_sig q_parse_twig_sw_icon_ex.
  Lemma q_parse_twig_sw_icon : forall outer, cost bnd_parse_twig_sw_icon (parse_twig_sw_icon outer).
  Proof. exact (proj2_sig q_parse_twig_sw_icon_ex). Qed.
  #[local] Hint Resolve q_parse_twig_sw_icon : cost.

  Lemma q_parse_twig_sw_return_ex : { w : bound | forall outer, cost w (parse_twig_sw_return outer) }.
  Proof. eexists; intros; unfold parse_twig_sw_return; costs. Unshelve. all: exact never. Defined.
  Definition bnd_parse_twig_sw_return : bound := Eval lazy in proj1_sig q_parse_twig_sw_return_ex.
  Lemma q_parse_twig_sw_return : forall outer, cost bnd_parse_twig_sw_return (parse_twig_sw_return outer).
  Proof. exact (proj2_sig q_parse_twig_sw_return_ex). Qed.
  #[local] Hint Resolve q_parse_twig_sw_return : cost.

  Lemma q_parse_twig_sw_silent_feature_call_ex : { w : bound | forall outer child, cost w (parse_twig_sw_silent_feature_call outer child) }.
  Proof. eexists; intros; unfold parse_twig_sw_silent_feature_call; costs. Unshelve. all: exact never. Defined.
  Definition bnd_parse_twig_sw_silent_feature_call : bound := Eval lazy in proj1_sig q_parse_twig_sw_silent_feature_call_ex.
  Lemma q_parse_twig_sw_silent_feature_call : forall outer child, cost bnd_parse_twig_sw_silent_feature_call (parse_twig_sw_silent_feature_call outer child).
  Proof. exact (proj2_sig q_parse_twig_sw_silent_feature_call_ex). Qed.
  #[local] Hint Resolve q_parse_twig_sw_silent_feature_call : cost.

  Lemma q_parse_twig_sw_extends_ex : { w : bound | forall outer, cost w (parse_twig_sw_extends outer) }.
  Proof. eexists; intros; unfold parse_twig_sw_extends; costs. Unshelve. all: exact never. Defined.
  Definition bnd_parse_twig_sw_extends : bound := Eval lazy in proj1_sig q_parse_twig_sw_extends_ex.
  Lemma q_parse_twig_sw_extends : forall outer, cost bnd_parse_twig_sw_extends (parse_twig_sw_extends outer).
  Proof. exact (proj2_sig q_parse_twig_sw_extends_ex). Qed.
  #[local] Hint Resolve q_parse_twig_sw_extends : cost.

  Lemma q_parse_twig_sw_include_ex : { w : bound | forall outer, cost w (parse_twig_sw_include outer) }.
  Proof. eexists; intros; unfold parse_twig_sw_include; costs. Unshelve. all: exact never. Defined.
  Definition bnd_parse_twig_sw_include : bound := Eval lazy in proj1_sig q_parse_twig_sw_include_ex.
  Lemma q_parse_twig_sw_include : forall outer, cost bnd_parse_twig_sw_include (parse_twig_sw_include outer).
  Proof. exact (proj2_sig q_parse_twig_sw_include_ex). Qed.
  #[local] Hint Resolve q_parse_twig_sw_include : cost.

  Lemma q_parse_shopware_twig_block_statement_ex : { w : bound | forall outer child, cost w (parse_shopware_twig_block_statement outer child) }.
  Proof. eexists; intros; unfold parse_shopware_twig_block_statement; costs. Unshelve. all: exact never. Defined.
  Definition bnd_parse_shopware_twig_block_statement : bound := Eval lazy in proj1_sig q_parse_shopware_twig_block_statement_ex.
  Lemma q_parse_shopware_twig_block_statement : forall outer child, cost bnd_parse_shopware_twig_block_statement (parse_shopware_twig_block_statement outer child).
  Proof. exact (proj2_sig q_parse_shopware_twig_block_statement_ex). Qed.
  #[local] Hint Resolve q_parse_shopware_twig_block_statement : cost.

  Lemma q_parse_twig_block_statement_ex : { w : bound | forall child, cost w (parse_twig_block_statement child) }.
  Proof. eexists; intros; unfold parse_twig_block_statement; costs. Unshelve. all: exact never. Defined.
  Definition bnd_parse_twig_block_statement : bound := Eval lazy in proj1_sig q_parse_twig_block_statement_ex.
  Lemma q_parse_twig_block_statement : forall child, cost bnd_parse_twig_block_statement (parse_twig_block_statement child).
  Proof. exact (proj2_sig q_parse_twig_block_statement_ex). Qed.
  #[local] Hint Resolve q_parse_twig_block_statement : cost.

  Lemma q_parse_ludtwig_directive_ex : { w : bound | forall outer closing_kinds, cost w (parse_ludtwig_directive outer closing_kinds) }.
  Proof. eexists; intros; unfold parse_ludtwig_directive; costs. Unshelve. all: exact never. Defined.
  Definition bnd_parse_ludtwig_directive : bound := Eval lazy in proj1_sig q_parse_ludtwig_directive_ex.
  Lemma q_parse_ludtwig_directive : forall outer closing_kinds, cost bnd_parse_ludtwig_directive (parse_ludtwig_directive outer closing_kinds).
  Proof. exact (proj2_sig q_parse_ludtwig_directive_ex). Qed.
  #[local] Hint Resolve q_parse_ludtwig_directive : cost.

  Lemma q_parse_twig_plain_comment_ex : { w : bound | forall outer, cost w (parse_twig_plain_comment outer) }.
  Proof. eexists; intros; unfold parse_twig_plain_comment; costs. Unshelve. all: exact never. Defined.
  Definition bnd_parse_twig_plain_comment : bound := Eval lazy in proj1_sig q_parse_twig_plain_comment_ex.
  Lemma q_parse_twig_plain_comment : forall outer, cost bnd_parse_twig_plain_comment (parse_twig_plain_comment outer).
  Proof. exact (proj2_sig q_parse_twig_plain_comment_ex). Qed.
  #[local] Hint Resolve q_parse_twig_plain_comment : cost.

  Lemma q_parse_twig_comment_statement_ex : { w : bound | cost w parse_twig_comment_statement }.
  Proof. eexists; intros; unfold parse_twig_comment_statement; costs. Unshelve. all: exact never. Defined.
  Definition bnd_parse_twig_comment_statement : bound := Eval lazy in proj1_sig q_parse_twig_comment_statement_ex.
  Lemma q_parse_twig_comment_statement : cost bnd_parse_twig_comment_statement parse_twig_comment_statement.
  Proof. exact (proj2_sig q_parse_twig_comment_statement_ex). Qed.
  #[local] Hint Resolve q_parse_twig_comment_statement : cost.

  Lemma q_parse_twig_var_statement_ex : { w : bound | cost w parse_twig_var_statement }.
  Proof. eexists; intros; unfold parse_twig_var_statement; costs. Unshelve. all: exact never. Defined.
  Definition bnd_parse_twig_var_statement : bound := Eval lazy in proj1_sig q_parse_twig_var_statement_ex.
  Lemma q_parse_twig_var_statement : cost bnd_parse_twig_var_statement parse_twig_var_statement.
  Proof. exact (proj2_sig q_parse_twig_var_statement_ex). Qed.
  #[local] Hint Resolve q_parse_twig_var_statement : cost.

  Lemma q_parse_any_twig_ex : { w : bound | forall child, cost w (parse_any_twig child) }.
  Proof. eexists; intros; unfold parse_any_twig; costs. Unshelve. all: exact never. Defined.
  Definition bnd_parse_any_twig : bound := Eval lazy in proj1_sig q_parse_any_twig_ex.
  Lemma q_parse_any_twig : forall child, cost bnd_parse_any_twig (parse_any_twig child).
  Proof. exact (proj2_sig q_parse_any_twig_ex). Qed.
  #[local] Hint Resolve q_parse_any_twig : cost.

  Lemma q_parse_html_doctype_ex : { w : bound | cost w parse_html_doctype }.
  Proof. eexists; intros; unfold parse_html_doctype; costs. Unshelve. all: exact never. Defined.
  Definition bnd_parse_html_doctype : bound := Eval lazy in proj1_sig q_parse_html_doctype_ex.
  Lemma q_parse_html_doctype : cost bnd_parse_html_doctype parse_html_doctype.
  Proof. exact (proj2_sig q_parse_html_doctype_ex). Qed.
  #[local] Hint Resolve q_parse_html_doctype : cost.

  Lemma q_parse_html_text_ex : { w : bound | cost w parse_html_text }.
  Proof. eexists; intros; unfold parse_html_text; costs. Unshelve. all: exact never. Defined.
  Definition bnd_parse_html_text : bound := Eval lazy in proj1_sig q_parse_html_text_ex.
  Lemma q_parse_html_text : cost bnd_parse_html_text parse_html_text.
  Proof. exact (proj2_sig q_parse_html_text_ex). Qed.
  #[local] Hint Resolve q_parse_html_text : cost.

  Lemma q_body_raw_inner_ex : { w : bound | cost w body_raw_inner }.
  Proof. eexists; intros; unfold body_raw_inner; costs. Unshelve. all: exact never. Defined.
  Definition bnd_body_raw_inner : bound := Eval lazy in proj1_sig q_body_raw_inner_ex.
  Lemma q_body_raw_inner : cost bnd_body_raw_inner body_raw_inner.
  Proof. exact (proj2_sig q_body_raw_inner_ex). Qed.
  #[local] Hint Resolve q_body_raw_inner : cost.

  Lemma q_early_end_tag_ex : { w : bound | forall tag_kind tag_name met, cost w (early_end_tag tag_kind tag_name met) }.
  Proof. eexists; intros; unfold early_end_tag; costs. Unshelve. all: exact never. Defined.
  Definition bnd_early_end_tag : bound := Eval lazy in proj1_sig q_early_end_tag_ex.
  Lemma q_early_end_tag : forall tag_kind tag_name met, cost bnd_early_end_tag (early_end_tag tag_kind tag_name met).
  Proof. exact (proj2_sig q_early_end_tag_ex). Qed.
  #[local] Hint Resolve q_early_end_tag : cost.

  Lemma q_parse_html_raw_text_ex : { w : bound | forall tag_kind tag_name, cost w (parse_html_raw_text tag_kind tag_name) }.
  Proof. eexists; intros; unfold parse_html_raw_text; costs. Unshelve. all: exact never. Defined.
  Definition bnd_parse_html_raw_text : bound := Eval lazy in proj1_sig q_parse_html_raw_text_ex.
  Lemma q_parse_html_raw_text : forall tag_kind tag_name, cost bnd_parse_html_raw_text (parse_html_raw_text tag_kind tag_name).
  Proof. exact (proj2_sig q_parse_html_raw_text_ex). Qed.
  #[local] Hint Resolve q_parse_html_raw_text : cost.

  Lemma q_parse_plain_html_comment_ex : { w : bound | forall outer, cost w (parse_plain_html_comment outer) }.
  Proof. eexists; intros; unfold parse_plain_html_comment; costs. Unshelve. all: exact never. Defined.
  Definition bnd_parse_plain_html_comment : bound := Eval lazy in proj1_sig q_parse_plain_html_comment_ex.
  Lemma q_parse_plain_html_comment : forall outer, cost bnd_parse_plain_html_comment (parse_plain_html_comment outer).
  Proof. exact (proj2_sig q_parse_plain_html_comment_ex). Qed.
  #[local] Hint Resolve q_parse_plain_html_comment : cost.

  Lemma q_parse_html_comment_ex : { w : bound | cost w parse_html_comment }.
  Proof. eexists; intros; unfold parse_html_comment; costs. Unshelve. all: exact never. Defined.
  Definition bnd_parse_html_comment : bound := Eval lazy in proj1_sig q_parse_html_comment_ex.
  Lemma q_parse_html_comment : cost bnd_parse_html_comment parse_html_comment.
  Proof. exact (proj2_sig q_parse_html_comment_ex). Qed.
  #[local] Hint Resolve q_parse_html_comment : cost.

  Lemma q_html_string_child_ex : { w : bound | forall inner, cost w (html_string_child inner) }.
  Proof. eexists; intros; unfold html_string_child; costs. Unshelve. all: exact never. Defined.
  Definition bnd_html_string_child : bound := Eval lazy in proj1_sig q_html_string_child_ex.
  Lemma q_html_string_child : forall inner, cost bnd_html_string_child (html_string_child inner).
  Proof. exact (proj2_sig q_html_string_child_ex). Qed.
  #[local] Hint Resolve q_html_string_child : cost.

  Lemma q_inner_double_quote_parser_ex : { w : bound | cost w inner_double_quote_parser }.
  Proof. eexists; intros; unfold inner_double_quote_parser; costs. Unshelve. all: exact never. Defined.
  Definition bnd_inner_double_quote_parser : bound := Eval lazy in proj1_sig q_inner_double_quote_parser_ex.
  Lemma q_inner_double_quote_parser : cost bnd_inner_double_quote_parser inner_double_quote_parser.
  Proof. exact (proj2_sig q_inner_double_quote_parser_ex). Qed.
  #[local] Hint Resolve q_inner_double_quote_parser : cost.

  Lemma q_inner_single_quote_parser_ex : { w : bound | cost w inner_single_quote_parser }.
  Proof. eexists; intros; unfold inner_single_quote_parser; costs. Unshelve. all: exact never. Defined.
  Definition bnd_inner_single_quote_parser : bound := Eval lazy in proj1_sig q_inner_single_quote_parser_ex.
  Lemma q_inner_single_quote_parser : cost bnd_inner_single_quote_parser inner_single_quote_parser.
  Proof. exact (proj2_sig q_inner_single_quote_parser_ex). Qed.
  #[local] Hint Resolve q_inner_single_quote_parser : cost.

  Lemma q_inner_no_quote_parser_ex : { w : bound | cost w inner_no_quote_parser }.
  Proof. eexists; intros; unfold inner_no_quote_parser; costs. Unshelve. all: exact never. Defined.
  Definition bnd_inner_no_quote_parser : bound := Eval lazy in proj1_sig q_inner_no_quote_parser_ex.
  Lemma q_inner_no_quote_parser : cost bnd_inner_no_quote_parser inner_no_quote_parser.
  Proof. exact (proj2_sig q_inner_no_quote_parser_ex). Qed.
  #[local] Hint Resolve q_inner_no_quote_parser : cost.

  Lemma q_quote_ex : { w : bound | forall q, cost w match q with   | Some TK_DOUBLE_QUOTES => inner_double_quote_parser ;; Ret tt   | Some TK_SINGLE_QUOTES => inner_single_quote_parser ;; Ret tt   | None => inner_no_quote_parser   | Some _ => fail PUnreachable   end }.
  Proof. eexists; intros; costs. Unshelve. all: exact never. Defined.
  Definition bnd_quote : bound := Eval lazy in proj1_sig q_quote_ex.
  Lemma q_quote : forall q, cost bnd_quote match q with   | Some TK_DOUBLE_QUOTES => inner_double_quote_parser ;; Ret tt   | Some TK_SINGLE_QUOTES => inner_single_quote_parser ;; Ret tt   | None => inner_no_quote_parser   | Some _ => fail PUnreachable   end.
  Proof. exact (proj2_sig q_quote_ex). Qed.
  #[local] Hint Resolve q_quote : cost.

  Lemma q_parse_html_attribute_value_string_ex : { w : bound | cost w parse_html_attribute_value_string }.
  Proof. eexists; intros; unfold parse_html_attribute_value_string; costs. Unshelve. all: exact never. Defined.
  Definition bnd_parse_html_attribute_value_string : bound := Eval lazy in proj1_sig q_parse_html_attribute_value_string_ex.
  Lemma q_parse_html_attribute_value_string : cost bnd_parse_html_attribute_value_string parse_html_attribute_value_string.
  Proof. exact (proj2_sig q_parse_html_attribute_value_string_ex). Qed.
  #[local] Hint Resolve q_parse_html_attribute_value_string : cost.

  Lemma q_parse_html_attribute_rest_ex : { w : bound | forall attribute_m, cost w (parse_html_attribute_rest attribute_m) }.
  Proof. eexists; intros; unfold parse_html_attribute_rest; costs. Unshelve. all: exact never. Defined.
  Definition bnd_parse_html_attribute_rest : bound := Eval lazy in proj1_sig q_parse_html_attribute_rest_ex.
  Lemma q_parse_html_attribute_rest : forall attribute_m, cost bnd_parse_html_attribute_rest (parse_html_attribute_rest attribute_m).
  Proof. exact (proj2_sig q_parse_html_attribute_rest_ex). Qed.
  #[local] Hint Resolve q_parse_html_attribute_rest : cost.

  Lemma q_body_attr_ex : { w : bound | cost w body_attr }.
  Proof. eexists; intros; unfold body_attr; costs. Unshelve. all: exact never. Defined.
  Definition bnd_body_attr : bound := Eval lazy in proj1_sig q_body_attr_ex.
  Lemma q_body_attr : cost bnd_body_attr body_attr.
  Proof. exact (proj2_sig q_body_attr_ex). Qed.
  #[local] Hint Resolve q_body_attr : cost.

  Lemma q_parse_attribute_list_ex : { w : bound | cost w parse_attribute_list }.
  Proof. eexists; intros; unfold parse_attribute_list; costs. Unshelve. all: exact never. Defined.
  Definition bnd_parse_attribute_list : bound := Eval lazy in proj1_sig q_parse_attribute_list_ex.
  Lemma q_parse_attribute_list : cost bnd_parse_attribute_list parse_attribute_list.
  Proof. exact (proj2_sig q_parse_attribute_list_ex). Qed.
  #[local] Hint Resolve q_parse_attribute_list : cost.

  Lemma q_parse_html_ending_tag_ex : { w : bound | forall tag_kind tag_name met, cost w (parse_html_ending_tag tag_kind tag_name met) }.
  Proof. eexists; intros; unfold parse_html_ending_tag; costs. Unshelve. all: exact never. Defined.
  Definition bnd_parse_html_ending_tag : bound := Eval lazy in proj1_sig q_parse_html_ending_tag_ex.
  Lemma q_parse_html_ending_tag : forall tag_kind tag_name met, cost bnd_parse_html_ending_tag (parse_html_ending_tag tag_kind tag_name met).
  Proof. exact (proj2_sig q_parse_html_ending_tag_ex). Qed.
  #[local] Hint Resolve q_parse_html_ending_tag : cost.

  Lemma q_parse_html_element_ex : { w : bound | cost w parse_html_element }.
  Proof. eexists; intros; unfold parse_html_element; costs. Unshelve. all: exact never. Defined.
  Definition bnd_parse_html_element : bound := Eval lazy in proj1_sig q_parse_html_element_ex.
  Lemma q_parse_html_element : cost bnd_parse_html_element parse_html_element.
  Proof. exact (proj2_sig q_parse_html_element_ex). Qed.
  #[local] Hint Resolve q_parse_html_element : cost.

  Lemma q_parse_any_html_ex : { w : bound | cost w parse_any_html }.
  Proof. eexists; intros; unfold parse_any_html; costs. Unshelve. all: exact never. Defined.
  Definition bnd_parse_any_html : bound := Eval lazy in proj1_sig q_parse_any_html_ex.
  Lemma q_parse_any_html : cost bnd_parse_any_html parse_any_html.
  Proof. exact (proj2_sig q_parse_any_html_ex). Qed.
  #[local] Hint Resolve q_parse_any_html : cost.

  Lemma q_body_any_ex : { w : bound | cost w body_any }.
  Proof. eexists; intros; unfold body_any; costs. Unshelve. all: exact never. Defined.
  Definition bnd_body_any : bound := Eval lazy in proj1_sig q_body_any_ex.
  Lemma q_body_any : cost bnd_body_any body_any.
  Proof. exact (proj2_sig q_body_any_ex). Qed.
  #[local] Hint Resolve q_body_any : cost.

  Lemma q_body_ex : { w : bound | forall c, cost w (body c) }.
  Proof. eexists; intros; unfold body; costs. Unshelve. all: exact never. Defined.
  Definition bnd_body : bound := Eval lazy in proj1_sig q_body_ex.
  Lemma q_body : forall c, cost bnd_body (body c).
  Proof. exact (proj2_sig q_body_ex). Qed.
  #[local] Hint Resolve q_body : cost.

  Lemma q_root_ex : { w : bound | cost w root }.
  Proof. eexists; intros; unfold root; costs. Unshelve. all: exact never. Defined.
  Definition bnd_root : bound := Eval lazy in proj1_sig q_root_ex.
  Lemma q_root : cost bnd_root root.
  Proof. exact (proj2_sig q_root_ex). Qed.
  #[local] Hint Resolve q_root : cost.
  Lemma q_root_body_ex : { w : bound | cost w root_body }.
  Proof. eexists; intros; unfold root_body; costs. Unshelve. all: exact never. Defined.
  Definition bnd_root_body : bound := Eval lazy in proj1_sig q_root_body_ex.
  Lemma q_root_body : cost bnd_root_body root_body.
  Proof. exact (proj2_sig q_root_body_ex). Qed.
End Run.

(** * Both machines *)
Lemma drop_le r : (length (drop_trivia r) <= length r)%nat.
Proof. induction r as [|t r IH]; [apply le_n|]. cbn [drop_trivia]. destruct (is_trivia (tk_kind t)); cbn [List.length] in *; lia. Qed.
Lemma cstep_ok dbg (B : Set) (o : op B) s b s' : cstep dbg B o s = OK (b, s') -> c_toks s' = c_toks s /\ advance cstate c_rest o s s'.
Proof.
  intros E. pose proof (drop_le (c_rest s)) as D.
  destruct o as [| |site as_|n kd| |e tok| |m kd|c|q|site f]; cbn [cstep advance] in *.
  - injection E as <- <-. cbn [c_toks c_rest]. auto.
  - injection E as <- <-. auto.
  - destruct (drop_trivia (c_rest s)) as [|t ts] eqn:Dr; [discriminate|]. injection E as <- <-. cbn [c_toks c_rest List.length] in *. split; [reflexivity|lia].
  - destruct (Nat.eqb _ n); [|discriminate]. injection E as <- <-. cbn [c_toks c_rest]. rewrite skipn_length. split; [reflexivity|lia].
  - injection E as <- <-. auto.
  - destruct tok as [tok|]; [injection E as <- <-; auto|].
    destruct (error_here _ _ e) as [err|q|]; try discriminate. cbn [rbind] in E. injection E as <- <-. cbn [c_toks c_rest]. auto.
  - injection E as <- <-. auto.
  - unfold c_complete in E. destruct (dbg && _)%bool; [discriminate|]. destruct (nth_error _ m); [|discriminate]. destruct (dbg && _)%bool; [discriminate|]. injection E as <- <-. auto.
  - unfold c_precede in E. unfold c_start in E; cbn [c_events] in E. match type of E with context [nth_error ?l c] => destruct (nth_error l c) as [[k0 fp| | | | |]|]; try discriminate end. injection E as <- <-. auto.
  - discriminate.
  - destruct dbg; [destruct (f _); [|discriminate]|]; injection E as <- <-; cbn [c_toks c_rest]; auto.
Qed.
Lemma cstep_pos dbg s b s' : cstep dbg nat GetPos s = OK (b, s') -> s' = s /\ b = (length (c_toks s) - length (c_rest s))%nat.
Proof. cbn [cstep]. intros E. injection E as <- <-. auto. Qed.
Lemma tstep_ok dbg T (B : Set) (o : op B) s b s' : tstep false dbg T B o s = OK (b, s') -> T = T /\ advance tstate t_rest o s s'.
Proof.
  intros E. split; [reflexivity|]. pose proof (drop_le (t_rest s)) as D.
  destruct o as [| |site as_|n kd| |e tok| |m kd|c|q|site f]; cbn [tstep advance] in *.
  - injection E as <- <-. cbn [t_rest]. auto.
  - injection E as <- <-. auto.
  - destruct (drop_trivia (t_rest s)) as [|t ts] eqn:Dr; [discriminate|]. destruct (drop_trivia (t_snk s)); [discriminate|]. injection E as <- <-. cbn [t_rest List.length] in *. lia.
  - destruct (Nat.eqb _ n); [|discriminate]. destruct (Nat.leb _ _); [|discriminate]. injection E as <- <-. cbn [t_rest]. rewrite skipn_length. lia.
  - injection E as <- <-. auto.
  - destruct tok as [tok|]; [injection E as <- <-; auto|].
    destruct (error_here _ _ e) as [err|q|]; try discriminate. cbn [rbind] in E. injection E as <- <-. cbn [t_rest]. auto.
  - injection E as <- <-. auto.
  - destruct (t_stack s) as [|[m' saved] st]; [discriminate|]. destruct (Nat.eqb m' m); [|discriminate]. injection E as <- <-. auto.
  - destruct (split_node c (t_items s)) as [[[older nd] recent]|]; [|discriminate]. injection E as <- <-. auto.
  - discriminate.
  - destruct dbg; [destruct (f _); [|discriminate]|]; injection E as <- <-; cbn [t_rest]; auto.
Qed.
Lemma tstep_pos dbg T s b s' : tstep false dbg T nat GetPos s = OK (b, s') -> s' = s /\ b = (length T - length (t_rest s))%nat.
Proof. cbn [tstep]. intros E. injection E as <- <-. auto. Qed.

Section Calls.
  Context (St : Type) (step : forall B : Set, op B -> St -> res (B * St)) (toks rest : St -> list token).
  Hypothesis Op_ok : forall (B : Set) (o : op B) s b s', step B o s = OK (b, s') -> toks s' = toks s /\ advance St rest o s s'.
  Hypothesis Pos_ok : forall s b s', step nat GetPos s = OK (b, s') -> s' = s /\ b = (length (toks s) - length (rest s))%nat.
  Lemma all_calls_cost : forall n c s k a s' k', run (counting step) n (body c) (s, k) = OK (a, (s', k')) -> spent St toks rest CALL s k s' k'.
  Proof.
    induction n as [n IH] using (well_founded_induction lt_wf). intros c s k a s' k' E.
    assert (C : cost St step toks rest n CALL (body c)).
    { eapply cost_within; [apply q_body; try assumption|vm_compute; reflexivity]. intros c' m s1 k1 a1 s2 k2 L. apply IH. exact L. }
    exact (C n s k a s' k' (Nat.le_refl n) E).
  Qed.
  Lemma root_cost n s k a s' k' : run (counting step) n root (s, k) = OK (a, (s', k')) -> Z.of_nat k' <= Z.of_nat k + K * left St rest s + 35.
  Proof.
    intros E. assert (C : cost St step toks rest n bnd_root root).
    { apply q_root; try assumption. intros. eapply all_calls_cost. eassumption. }
    destruct (C n s k a s' k' (Nat.le_refl n) E) as (_ & L & A & B). unfold bnd_root, K, left in *. cbn [fst snd] in *. lia.
  Qed.
  Lemma root_body_cost n s k a s' k' : run (counting step) n root_body (s, k) = OK (a, (s', k')) -> Z.of_nat k' <= Z.of_nat k + K * left St rest s + 35.
  Proof.
    intros E. assert (C : cost St step toks rest n bnd_root_body root_body).
    { apply q_root_body; try assumption. intros. eapply all_calls_cost. eassumption. }
    destruct (C n s k a s' k' (Nat.le_refl n) E) as (_ & L & A & B). unfold bnd_root_body, K, left in *. cbn [fst snd] in *. lia.
  Qed.
End Calls.

(** * The size of the result *)
Close Scope Z_scope.
(** The number of nodes of a tree (tokens are not counted). *)
Fixpoint nodes (t : tree) : nat := match t with Leaf _ _ => 0 | Node _ cs => S (list_sum (map nodes cs)) end.
Lemma sum_cons a l : list_sum (a :: l) = a + list_sum l.
Proof. reflexivity. Qed.
Definition all_nodes (l : list tree) : nat := list_sum (map nodes l).
Lemma all_nodes_app l r : all_nodes (l ++ r) = all_nodes l + all_nodes r.
Proof. unfold all_nodes. now rewrite map_app, list_sum_app. Qed.
Lemma all_nodes_leaves ts : all_nodes (map leaf ts) = 0.
Proof. induction ts as [|t ts IH]; [reflexivity|exact IH]. Qed.
Lemma trees_app a b : trees (a ++ b) = trees a ++ trees b.
Proof. unfold trees. apply flat_map_app. Qed.
Lemma trees_lock l : trees (map lock l) = trees l.
Proof. induction l as [|i l IH]; [reflexivity|]. unfold trees in *. cbn [map flat_map]. rewrite IH. destruct i; reflexivity. Qed.
Lemma split_trees c its : forall a t b, split_node c its = Some (a, t, b) -> trees its = trees a ++ t :: trees b.
Proof.
  induction its as [|i its IH]; [discriminate|]. cbn [split_node]. destruct (split_node c its) as [[[a0 t0] b0]|] eqn:E; intros a t b H.
  - injection H as <- <- <-. unfold trees in *. cbn [flat_map]. rewrite (IH _ _ _ eq_refl). now rewrite app_assoc.
  - destruct i as [| |m t1|]; try discriminate. destruct (Nat.eqb m c); [|discriminate]. injection H as <- <- <-. reflexivity.
Qed.
Definition weight (s : tstate) : nat :=
  all_nodes (trees (t_items s)) + list_sum (map (fun f => S (all_nodes (trees (snd f)))) (t_stack s)) + length (t_errs s).
Lemma weight_step dbg T (B : Set) (o : op B) s b s' : tstep false dbg T B o s = OK (b, s') -> weight s' <= S (weight s).
Proof.
  intros E. unfold weight.
  destruct o as [| |site as_|n kd| |e tok| |m kd|c|q|site f]; cbn [tstep] in *.
  - injection E as <- <-. cbn [t_items t_stack t_errs]. lia.
  - injection E as <- <-. lia.
  - destruct (drop_trivia (t_rest s)) as [|t ts]; [discriminate|]. destruct (drop_trivia (t_snk s)); [discriminate|]. injection E as <- <-. cbn [t_items t_stack t_errs].
    rewrite trees_app, all_nodes_app. unfold trees at 2. cbn [flat_map item_trees]. rewrite app_nil_r, all_nodes_app, all_nodes_leaves. cbn. lia.
  - destruct (Nat.eqb _ n); [|discriminate]. destruct (Nat.leb _ _); [|discriminate]. injection E as <- <-. cbn [t_items t_stack t_errs].
    rewrite trees_app, all_nodes_app. unfold trees at 2. cbn [flat_map item_trees]. rewrite app_nil_r, all_nodes_app, all_nodes_leaves. cbn. lia.
  - injection E as <- <-. cbn [t_items t_stack t_errs]. rewrite trees_app, all_nodes_app. unfold trees at 2. cbn [flat_map item_trees]. rewrite app_nil_r, all_nodes_leaves. lia.
  - destruct tok as [tok|]; [injection E as <- <-; cbn [t_items t_stack t_errs]; rewrite app_length; cbn [List.length]; lia|].
    destruct (error_here _ _ e) as [err|q|]; try discriminate. cbn [rbind] in E. injection E as <- <-. cbn [t_items t_stack t_errs]; rewrite app_length; cbn [List.length]; lia.
  - injection E as <- <-. cbn [t_items t_stack t_errs map snd]. rewrite sum_cons. change (all_nodes (trees [])) with 0. lia.
  - destruct (t_stack s) as [|[m' saved] st]; [discriminate|]. destruct (Nat.eqb m' m); [|discriminate]. injection E as <- <-. cbn [t_items t_stack t_errs map snd].
    rewrite trees_app, all_nodes_app. unfold trees at 2. cbn [flat_map item_trees]. rewrite app_nil_r. unfold all_nodes at 2. cbn [map nodes].
    rewrite !sum_cons. change (list_sum (map nodes (trees (t_items s)))) with (all_nodes (trees (t_items s))). change (list_sum []) with 0. lia.
  - destruct (split_node c (t_items s)) as [[[older nd] recent]|] eqn:Sp; [|discriminate]. injection E as <- <-. cbn [t_items t_stack t_errs map snd].
    rewrite (split_trees _ _ _ _ _ Sp), all_nodes_app. unfold trees at 1. cbn [flat_map item_trees]. change (flat_map item_trees (map lock recent)) with (trees (map lock recent)). rewrite trees_lock.
    change ([nd] ++ trees recent) with (nd :: trees recent). rewrite sum_cons. lia.
  - discriminate.
  - destruct dbg; [destruct (f _); [|discriminate]|]; injection E as <- <-; cbn [t_items t_stack t_errs]; lia.
Qed.
Lemma weight_run dbg T n (A : Set) (p : prog A) s c a s' : run (tstep false dbg T) n p s = OK (a, s') ->
  exists c', run (counting (tstep false dbg T)) n p (s, c) = OK (a, (s', c')) /\ weight s' + c <= weight s + c'.
Proof.
  intros H. pose proof (run_sim tstate (tstate * nat) (fun x y => fst y = x /\ weight x + c <= weight s + snd y) (tstep false dbg T) (counting (tstep false dbg T))) as S.
  match type of S with ?P -> _ => assert (G : P) end.
  { intros B o x y [<- W]. unfold counting. destruct (tstep false dbg T B o (fst y)) as [[b x]|q|] eqn:E; cbn [simres]; [|destruct q; auto|reflexivity].
    eexists. split; [reflexivity|]. cbn [fst snd]. split; [reflexivity|]. pose proof (weight_step _ _ _ _ _ _ _ E). lia. }
  specialize (S G n A p s (s, c) (conj eq_refl (Nat.le_refl _))). rewrite H in S. destruct S as ([s2 c'] & S & E & W). cbn [fst snd] in E, W. subst s2. eauto.
Qed.
Lemma lexed_length off s T : lexed off s T -> length T <= length s.
Proof. induction 1 as [|off s n k t rest Hs Hl Hn Ht Hr IH]; [apply le_n|]. cbn [List.length]. rewrite skipn_length in IH. lia. Qed.

(** What a parse costs and how big its result is. *)
Lemma parse_cost dbg src t errs : parse_src dbg src = OK (t, errs) ->
  exists n a s, run (counting (cstep dbg)) (parse_fuel (lex src)) root (c_init (lex src), 0) = OK (a, (s, n)) /\ c_errs s = errs /\ n <= 150 * length (lex src) + 35.
Proof.
  unfold parse_src, parse_tokens, parser_parse. cbv zeta. destruct (run (cstep dbg) _ root _) as [[a s]|q|] eqn:E; try discriminate. cbn [rbind fst snd].
  destruct (c_open s); [|discriminate]. cbn [rbind fst snd]. destruct (sink _ _) as [t'|q|]; try discriminate. cbn [rbind fst snd]. intros H. injection H as _ <-.
  apply counting_run with (c := 0) in E as [n E]. exists n, a, s. split; [exact E|]. split; [reflexivity|].
  apply (root_cost _ _ c_toks c_rest (cstep_ok dbg) (cstep_pos dbg)) in E. unfold left, K in E. cbn [c_init c_rest] in E. lia.
Qed.
Lemma tree_cost dbg src t errs : parse_src dbg src = OK (t, errs) -> nodes t + length errs <= 150 * length (lex src) + 36.
Proof.
  intros H. unfold parse_src in H. destruct (lex src) as [|t0 T0] eqn:E0.
  { assert (E : parse_tokens dbg (parse_fuel []) [] = OK (Node ROOT [], [])) by (destruct dbg; vm_compute; reflexivity).
    rewrite E in H. injection H as <- <-. cbn. lia. }
  revert H. generalize (t0 :: T0), (@nil_cons _ t0 T0). clear. intros T HT H. cbv zeta in H.
  pose proof (parse_tokens_sim dbg (parse_fuel T) T) as Sim.
  pose proof (root_wp dbg T (not_eq_sym HT) (t_root T)) as W.
  assert (Hw : Total.wf T (t_root T)).
  { constructor; cbn [t_root t_rest t_snk t_items t_stack t_errs]; auto.
    - exists []. reflexivity.
    - exists []. split; [reflexivity|]. cbn. constructor.
    - exists Apart. split; [reflexivity|]. congruence. }
  specialize (W Hw eq_refl eq_refl eq_refl). unfold parse_fuel in *.
  destruct (run (tstep false dbg T) (2 * length T + 1) root_body (t_root T)) as [[u s]|q|] eqn:R; cbn [holds] in *.
  - destruct W as ([W1 _ _ _ _] & Hd & Hs). rewrite W1 in Sim. specialize (Sim Hs Hd). rewrite Sim in H. injection H as <- <-.
    apply weight_run with (c := 0) in R as (n & R & Wt).
    apply (root_body_cost _ _ (fun _ => T) t_rest (tstep_ok dbg T) (tstep_pos dbg T)) in R. unfold left, K in R. cbn [t_root t_rest] in R.
    unfold weight in Wt. rewrite Hs in Wt. cbn in Wt. cbn [nodes]. change (list_sum (map nodes ?l)) with (all_nodes l). rewrite all_nodes_app, all_nodes_leaves. unfold all_nodes in *. lia.
  - destruct q; try discriminate; try (rewrite Sim in H; discriminate). exfalso.
    destruct W as [[_ X]|[_ [X|[X|X]]]]; discriminate X.
  - rewrite Sim in H. discriminate.
Qed.
