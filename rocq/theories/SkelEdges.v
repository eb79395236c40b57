(** Trees of arbitrary parses, part 2: operators at the edges of expressions. *)
From Coq Require Import NArith String Bool Arith Lia List.
Import ListNotations.
From Verif Require Import Text Kind Regex Lexer LexerProofs ParserApi GrammarExpr GrammarTags GrammarHtml
  Machine TreeMachine Simulation TreeSpec WpBase Total Schema Skeleton Precedence Shape ShapeStrict SkelBase.
Local Notation length := List.length (only parsing).
Local Open Scope list_scope.
Local Open Scope prog_scope.
Local Open Scope cm_scope.

(** * Edges of nodes under construction *)
Definition last_step (k : kind) (acc : option (list opr)) (c : tree) : option (list opr) :=
  match c with
  | Leaf k' _ => if junk k' then acc else None
  | Node ERROR _ => None
  | Node TWIG_ARGUMENTS _ => match k with TWIG_FUNCTION_CALL => right_edge c | _ => None end
  | Node _ _ => right_edge c
  end.
Definition last_edge (k : kind) (cs : list tree) : option (list opr) := fold_left (last_step k) cs None.
Definition with_last (o : opr) (x : option (list opr)) : option (list opr) :=
  match x with Some os => Some (o :: os) | None => None end.
Lemma right_edge_eq k cs : right_edge (Node k cs) =
  match k with
  | TWIG_EXPRESSION | TWIG_FUNCTION_CALL => last_edge k cs
  | TWIG_BINARY_EXPRESSION => match operator false cs with Some op => with_last (Bin op) (last_edge k cs) | None => None end
  | TWIG_UNARY_EXPRESSION => match operator true cs with Some op => with_last (Pre op) (last_edge k cs) | None => None end
  | TWIG_CONDITIONAL_EXPRESSION | TWIG_ARROW_FUNCTION => with_last Low (last_edge k cs)
  | TWIG_ARGUMENTS => if existsb is_open_parenthesis cs then Some [] else with_last Low (last_edge k cs)
  | _ => Some []
  end.
Proof. destruct k; reflexivity. Qed.
Definition first_edge (cs : list tree) : list opr := match operands_of cs with x :: _ => left_edge x | [] => [] end.
Lemma left_edge_eq k cs : left_edge (Node k cs) =
  match k with
  | TWIG_EXPRESSION => first_edge cs
  | TWIG_BINARY_EXPRESSION => match operator false cs with Some op => Bin op :: first_edge cs | None => first_edge cs end
  | TWIG_CONDITIONAL_EXPRESSION => Low :: first_edge cs
  | _ => []
  end.
Proof.
  assert (F : (fix first (cs : list tree) : list opr :=
      match cs with [] => [] | c :: cs' => if is_part c then left_edge c else first cs' end) cs = first_edge cs).
  { induction cs as [|c cs IH]; [reflexivity|]. unfold first_edge, operands_of. cbn [filter]. destruct (is_part c); [reflexivity|exact IH]. }
  destruct k; try reflexivity; cbn [left_edge]; rewrite F; reflexivity.
Qed.

(** only tokens without meaning *)
Definition junks (cs : list tree) : Prop := Forall (fun c => exists k s, c = Leaf k s /\ junk k = true) cs.
Lemma junks_app a b : junks a -> junks b -> junks (a ++ b).
Proof. intros. now apply Forall_app. Qed.
Lemma trivia_junks l : Forall trivia_token l -> junks (map leaf l).
Proof.
  induction 1 as [|t l H _ IH]; [constructor|]. constructor; [|exact IH]. exists (tk_kind t), (tk_text t). split; [reflexivity|].
  unfold junk, trivia_token in *. now rewrite H.
Qed.
Lemma unk_junks b : Forall (gooditem sound) b -> Forall unk b -> junks (trees b).
Proof.
  intros G H. induction H as [|i b H _ IH]; [constructor|]. inversion G as [|? ? G1 G2]; subst. unfold trees. cbn [flat_map].
  apply junks_app; [|exact (IH G2)]. destruct i as [tr k us| | |]; cbn [unk] in H; try contradiction. destruct k; try contradiction.
  cbn [item_trees gooditem] in *. apply junks_app; [now apply trivia_junks|]. constructor; [|constructor]. eauto.
Qed.
Lemma trees_lock b : trees (map lock b) = trees b.
Proof. induction b as [|[| | |] b IH]; [reflexivity| | | |]; unfold trees in *; cbn [map lock flat_map item_trees]; now rewrite IH. Qed.
Lemma good_lock_inv b : Forall (gooditem sound) (map lock b) -> Forall (gooditem sound) b.
Proof. intros G. rewrite Forall_map in G. eapply Forall_impl; [|exact G]. intros [| | |]; auto. Qed.
Lemma trees_app a b : trees (a ++ b) = trees a ++ trees b.
Proof. apply flat_map_app. Qed.
Lemma trees_cons i b : trees (i :: b) = item_trees i ++ trees b.
Proof. reflexivity. Qed.

Lemma last_app k a b : last_edge k (a ++ b) = fold_left (last_step k) b (last_edge k a).
Proof. apply fold_left_app. Qed.
Lemma last_junks k b acc : junks b -> fold_left (last_step k) b acc = acc.
Proof. intros H. revert acc. induction H as [|c b (k' & s & -> & E) _ IH]; [reflexivity|]. intros acc. cbn [fold_left last_step]. rewrite E. apply IH. Qed.
Lemma last_no_part k t : cn t = [] -> Forall (gooditem sound) t -> fold_left (last_step k) (trees t) None = None.
Proof.
  assert (LL : forall l, fold_left (last_step k) (map leaf l) None = None).
  { induction l as [|x l IH]; [reflexivity|]. cbn [map fold_left leaf last_step]. now destruct (junk (tk_kind x)). }
  intros H G. induction t as [|i t IH]; [reflexivity|]. rewrite cn_cons in H. apply app_eq_nil in H as [H1 H2].
  inversion G as [|? ? G1 G2]; subst. rewrite trees_cons, fold_left_app. specialize (IH H2 G2).
  enough (E : fold_left (last_step k) (item_trees i) None = None) by now rewrite E.
  destruct i as [tr k' us|tr|m n|n]; cbn [item_trees item_part gooditem] in *.
  - rewrite fold_left_app, LL. cbn [fold_left last_step]. now destruct (junk k').
  - apply LL.
  - destruct G1 as [(k1 & cs & ->) _]. destruct k1; try discriminate H1. reflexivity.
  - destruct G1 as [(k1 & cs & ->) _]. destruct k1; try discriminate H1. reflexivity.
Qed.
Lemma last_tok k tr k' us acc : gooditem sound (ITok tr k' us) -> junk k' = false ->
  fold_left (last_step k) (item_trees (ITok tr k' us)) acc = None.
Proof.
  intros G E. cbn [item_trees gooditem] in *. rewrite fold_left_app, (last_junks _ _ _ (trivia_junks _ G)).
  cbn [fold_left last_step]. now rewrite E.
Qed.

Lemma operator_junks p a b : junks a -> operator p (a ++ b) = operator p b.
Proof.
  induction 1 as [|c a (k & s & -> & E) _ IH]; [reflexivity|]. cbn [app operator].
  assert (N : level (if p then Pre k else Bin k) = None) by (destruct p, k; try reflexivity; discriminate E). now rewrite N.
Qed.
Lemma operator_tok p tr k us b : gooditem sound (ITok tr k us) -> level (if p : bool then Pre k else Bin k) <> None ->
  operator p (item_trees (ITok tr k us) ++ b) = Some k.
Proof.
  intros G E. cbn [item_trees gooditem] in *. rewrite <- app_assoc, operator_junks by now apply trivia_junks.
  cbn [app operator]. destruct (level (if p then Pre k else Bin k)); [reflexivity|contradiction].
Qed.
Lemma operands_app a b : operands_of (a ++ b) = operands_of a ++ operands_of b.
Proof. apply filter_app. Qed.
Lemma operands_no_part t : cn t = [] -> Forall (gooditem sound) t -> operands_of (trees t) = [].
Proof.
  assert (LL : forall l, operands_of (map leaf l) = []) by (induction l as [|x l IH]; [reflexivity|exact IH]).
  intros H G. induction t as [|i t IH]; [reflexivity|]. rewrite cn_cons in H. apply app_eq_nil in H as [H1 H2].
  inversion G as [|? ? G1 G2]; subst. rewrite trees_cons, operands_app, (IH H2 G2), app_nil_r.
  destruct i as [tr k' us|tr|m n|n]; cbn [item_trees item_part gooditem] in *.
  - now rewrite operands_app, LL.
  - apply LL.
  - destruct G1 as [(k1 & cs & ->) _]. destruct k1; try discriminate H1. reflexivity.
  - destruct G1 as [(k1 & cs & ->) _]. destruct k1; try discriminate H1. reflexivity.
Qed.
Lemma operands_tok tr k us b : operands_of (item_trees (ITok tr k us) ++ b) = operands_of b.
Proof.
  cbn [item_trees]. rewrite !operands_app. induction tr as [|x l IH]; [reflexivity|exact IH].
Qed.

(** * The table *)
Definition binaries : list kind := binary_operators.
Lemma binary_in k l r : binary_binding_power k = Some (l, r) -> In k binaries.
Proof. intros H. apply mem_kind_in. destruct k; try discriminate H; reflexivity. Qed.
Definition looserb (a b : opr) : bool :=
  match level a, level b with Some i, Some j => Nat.ltb i j | _, _ => false end.
Definition alikeb (a b : opr) : bool :=
  match level a, level b with Some i, Some j => Nat.eqb i j | _, _ => false end.
Lemma looserb_ok a b : looserb a b = true -> looser a b.
Proof.
  unfold looserb, looser. destruct (level a) as [i|], (level b) as [j|]; try discriminate. intros H. apply Nat.ltb_lt in H. eauto.
Qed.
Lemma alikeb_ok a b : alikeb a b = true -> alike a b.
Proof.
  unfold alikeb, alike. destruct (level a) as [i|], (level b) as [j|]; try discriminate. intros H. apply Nat.eqb_eq in H. subst. eauto.
Qed.
Lemma end_left_ok o k : looserb k o || (alikeb k o && negb (right_associative k)) = true -> may_end_left o k.
Proof.
  intros H. apply orb_true_iff in H as [H|H]; [left; now apply looserb_ok|]. apply andb_true_iff in H as [H1 H2].
  right. split; [now apply alikeb_ok|]. now apply negb_true_iff in H2.
Qed.
Lemma begin_right_ok o k : looserb k o || (alikeb k o && right_associative k) = true -> may_begin_right o k.
Proof.
  intros H. apply orb_true_iff in H as [H|H]; [left; now apply looserb_ok|]. apply andb_true_iff in H as [H1 H2].
  right. split; [now apply alikeb_ok|exact H2].
Qed.
Definition prefixes : list kind := unary_operators.
Definition oprs : list opr := Low :: map Pre prefixes ++ map Bin binaries.
Lemma power_oprs o : right_power o <> 0 -> In o oprs.
Proof.
  intros H. destruct o as [|k|k]; cbn [right_power] in H; [now left| |]; right; apply in_or_app.
  - left. apply in_map, mem_kind_in. destruct k; try reflexivity; now destruct H.
  - right. apply in_map, mem_kind_in. destruct k; try reflexivity; now destruct H.
Qed.
Lemma left_power_oprs o : left_power o <> 0 -> In o oprs.
Proof.
  intros H. destruct o as [|k|k]; cbn [left_power] in H; [now left|now destruct H|]; right; apply in_or_app.
  right. apply in_map, mem_kind_in. destruct k; try reflexivity; now destruct H.
Qed.
Lemma may_end op l rr o : binary_binding_power op = Some (l, rr) -> l < right_power o -> may_end_left o (Bin op).
Proof.
  intros E H. assert (Io : In o oprs) by (apply power_oprs; lia). apply end_left_ok.
  assert (A : forallb (fun k => forallb (fun o => Nat.leb (right_power o) (left_power (Bin k))
     || (looserb (Bin k) o || (alikeb (Bin k) o && negb (right_associative (Bin k))))) oprs) binaries = true) by (vm_compute; reflexivity).
  rewrite forallb_forall in A. specialize (A _ (binary_in _ _ _ E)). rewrite forallb_forall in A. specialize (A _ Io).
  cbn [left_power] in A. rewrite E in A. apply orb_true_iff in A as [A|A]; [apply Nat.leb_le in A; lia|exact A].
Qed.
Lemma may_end_low o : 0 < right_power o -> may_end_left o Low.
Proof.
  intros H. assert (Io : In o oprs) by (apply power_oprs; lia). apply end_left_ok.
  assert (A : forallb (fun o => Nat.leb (right_power o) 0
     || (looserb Low o || (alikeb Low o && negb (right_associative Low)))) oprs = true) by (vm_compute; reflexivity).
  rewrite forallb_forall in A. specialize (A _ Io). apply orb_true_iff in A as [A|A]; [apply Nat.leb_le in A; lia|exact A].
Qed.
Lemma may_begin k o : right_power k <> 0 -> right_power k <= left_power o -> may_begin_right o k.
Proof.
  intros Hk H. assert (Io : In o oprs) by (apply left_power_oprs; lia). apply begin_right_ok.
  assert (A : forallb (fun k => forallb (fun o => Nat.eqb (right_power k) 0 || Nat.ltb (left_power o) (right_power k)
     || (looserb k o || (alikeb k o && right_associative k))) oprs) oprs = true) by (vm_compute; reflexivity).
  rewrite forallb_forall in A. specialize (A _ (power_oprs _ Hk)). rewrite forallb_forall in A. specialize (A _ Io).
  apply orb_true_iff in A as [A|A]; [|exact A]. apply orb_true_iff in A as [A|A]; [apply Nat.eqb_eq in A; lia|apply Nat.ltb_lt in A; lia].
Qed.
Lemma binary_level op p : binary_binding_power op = Some p -> level (Bin op) <> None.
Proof. destruct op; discriminate. Qed.
Lemma unary_level op p : unary_binding_power op = Some p -> level (Pre op) <> None.
Proof. destruct op; discriminate. Qed.
Lemma binary_positive op l r : binary_binding_power op = Some (l, r) -> r <> 0.
Proof. destruct op; try discriminate; intros [= <- <-]; discriminate. Qed.
Lemma unary_positive op r : unary_binding_power op = Some r -> r <> 0.
Proof. destruct op; try discriminate; intros [= <-]; discriminate. Qed.
Lemma binary_plain op p : binary_binding_power op = Some p -> junk op = false.
Proof. destruct op; try discriminate; reflexivity. Qed.
Lemma unary_plain op p : unary_binding_power op = Some p -> junk op = false.
Proof. destruct op; try discriminate; reflexivity. Qed.
