(** From what a rule says about one node to the reports of a run. *)
From Coq Require Import NArith String Bool Arith Lia List.
Import ListNotations.
From Verif Require Import Text Kind Lexer LexerProofs ParserApi Machine TreeSpec.
From Verif Require Schema PropShape PropSkel.
From Verif Require Import Red Typed Rule Rules Check RedFacts WalkSpec PropRun PropOff Found.
Local Notation length := List.length (only parsing).
Local Open Scope list_scope.

Definition of_rule (n : text) (rs : list result) : list result := filter (fun r => text_eqb (rs_rule r) n) rs.

Lemma of_rule_app n a b : of_rule n (a ++ b) = of_rule n a ++ of_rule n b.
Proof. apply filter_app. Qed.
Lemma of_rule_named n m rs : Forall (named m) rs -> of_rule n rs = if text_eqb m n then rs else [].
Proof.
  induction 1 as [|r rs H _ IH]; [now destruct (text_eqb m n)|]. unfold of_rule in *. cbn [filter]. rewrite H, IH.
  now destruct (text_eqb m n).
Qed.
Lemma of_rule_flat_map {A} n (f : A -> list result) l : of_rule n (flat_map f l) = flat_map (fun x => of_rule n (f x)) l.
Proof. induction l as [|x l IH]; [reflexivity|]. cbn [flat_map]. now rewrite of_rule_app, IH. Qed.
Lemma text_eqb_refl s : text_eqb s s = true.
Proof. now apply text_eqb_eq. Qed.
Lemma text_eqb_neq a b : a <> b -> text_eqb a b = false.
Proof. intros H. destruct (text_eqb a b) eqn:E; [|reflexivity]. now apply text_eqb_eq in E. Qed.

(** Only the rule of that name has reports of that name. *)
Lemma only_rule {B} (f : rule -> list B) n rl : forall rules, NoDup (map rl_name rules) -> In rl rules -> rl_name rl = n ->
  flat_map (fun r => if text_eqb (rl_name r) n then f r else []) rules = f rl.
Proof.
  assert (Z : forall rules, ~ In n (map rl_name rules) -> flat_map (fun r => if text_eqb (rl_name r) n then f r else []) rules = []).
  { induction rules as [|r rules IH]; intros H; [reflexivity|]. cbn [flat_map map In] in *. rewrite text_eqb_neq by auto. cbn [app]. auto. }
  induction rules as [|r rules IH]; intros N H E; [destruct H|]. cbn [map] in N. inversion N as [|? ? N1 N2]; subst.
  cbn [flat_map]. destruct H as [->|H].
  - rewrite text_eqb_refl, Z by exact N1. apply app_nil_r.
  - rewrite text_eqb_neq; [cbn [app]; auto|]. intros X. apply N1. rewrite X. now apply in_map.
Qed.

(** An element in which white space must not be touched, according to the flag of the walk (C17). *)
Definition protected (e : elem) : Prop :=
  exists a, In a (lineage e) /\ protects a = true /\ ~ cleared_within run_hides protects a e.

Section Run.
  Context (cf : config) (rules : list rule) (t : tree) (results : list result).
  Hypothesis I : incl rules RULE_DEFINITIONS.
  Hypothesis N : NoDup (map rl_name rules).
  Hypothesis H : run_rules cf rules t = Done results.

  Lemma own_of rl : In rl rules -> own_name rl.
  Proof. intros X. pose proof own_names_of_definitions as O. rewrite Forall_forall in O. auto. Qed.

  Context (rl : rule) (R : In rl rules).
  Hypothesis no_roots : forall ctx e, rl_root rl ctx e = Done [].
  Hypothesis no_tokens : forall ctx e, rl_token rl ctx e = [].

  Lemma of_roots : forall rs roots, incl rs rules -> run_roots cf rs (root_elem t) = Done roots -> of_rule (rl_name rl) roots = [].
  Proof.
    induction rs as [|r rs IH]; intros roots Ir E; cbn [run_roots] in E; [injection E as <-; reflexivity|].
    destruct (rl_root r (mkCtx cf false) (root_elem t)) as [x|] eqn:E1; [|discriminate E].
    destruct (run_roots cf rs (root_elem t)) as [y|]; [|discriminate E]. injection E as <-.
    rewrite of_rule_app, (IH y) by (auto; intros z Hz; apply Ir; now right). rewrite app_nil_r.
    assert (Hr : In r rules) by (apply Ir; now left).
    destruct (own_of r Hr (mkCtx cf false) (root_elem t) t) as (_ & _ & G). rewrite E1 in G.
    rewrite (of_rule_named _ _ _ G). destruct (text_eqb (rl_name r) (rl_name rl)) eqn:E2; [|reflexivity].
    apply text_eqb_eq in E2.
    assert (r = rl) as -> by (eapply (C52_reports_name_their_rule cf rules t results); eauto).
    rewrite no_roots in E1. now injection E1.
  Qed.

  Lemma of_checked b e : of_rule (rl_name rl) (checked cf rules b e)
    = if switched_off (rl_name rl) e then [] else if is_node (el_tree e) then rl_node rl (mkCtx cf b) e else [].
  Proof.
    transitivity (flat_map (fun r => if text_eqb (rl_name r) (rl_name rl)
      then (if switched_off (rl_name r) e then [] else (if is_node (el_tree e) then rl_node r else rl_token r) (mkCtx cf b) e)
      else []) rules).
    - unfold checked. rewrite of_rule_flat_map.
      assert (G : forall rs, incl rs rules -> flat_map (fun x => of_rule (rl_name rl)
          (if switched_off (rl_name x) e then [] else (if is_node (el_tree e) then rl_node x else rl_token x) (mkCtx cf b) e)) rs
        = flat_map (fun r => if text_eqb (rl_name r) (rl_name rl)
            then (if switched_off (rl_name r) e then [] else (if is_node (el_tree e) then rl_node r else rl_token r) (mkCtx cf b) e)
            else []) rs).
      { induction rs as [|r rs IH]; intros Ir; [reflexivity|]. cbn [flat_map]. rewrite IH by (intros z Hz; apply Ir; now right). f_equal.
        destruct (own_of r (Ir r (or_introl eq_refl)) (mkCtx cf b) e t) as (G1 & G2 & _).
        rewrite (of_rule_named _ (rl_name r)); [reflexivity|]. destruct (switched_off _ _); [constructor|]. destruct (is_node _); assumption. }
      apply G. apply incl_refl.
    - rewrite (only_rule (fun r => if switched_off (rl_name r) e then [] else (if is_node (el_tree e) then rl_node r else rl_token r) (mkCtx cf b) e) _ rl) by auto.
      destruct (switched_off _ _); [reflexivity|]. destruct (is_node _); [reflexivity|apply no_tokens].
  Qed.

  Context {A : Type} (Q : elem -> A -> Prop) (D : A -> shown -> Prop).
  Hypothesis found : forall ctx e, cx_config ctx = cf -> (cx_sensitive ctx = true <-> protected e) -> In e (elements t) -> is_node (el_tree e) = true ->
    exists xs, NoDup xs /\ (forall x, In x xs <-> Q e x) /\ Forall2 (fun r x => D x (show r)) (rl_node rl ctx e) xs.
  Hypothesis in_node : forall e x, Q e x -> is_node (el_tree e) = true.
  Hypothesis one_node : forall e e' x, Q e x -> Q e' x -> e = e'.

  Lemma exact_rule_flag : exactly results (rl_name rl) (fun x => exists e, In e (elements t) /\ visible (rl_name rl) e /\ Q e x) D.
  Proof.
    destruct (C17_whitespace_flag_partial cf rules t results H) as (roots & fl & Er & Eres & Hfl).
    { intros X. rewrite X in R. destruct R. }
    unfold exactly. fold (of_rule (rl_name rl)). change (filter (fun r : result => text_eqb (rs_rule r) (rl_name rl))) with (of_rule (rl_name rl)).
    rewrite Eres, of_rule_app, (of_roots rules roots (incl_refl _) Er), of_rule_flat_map. cbn [app].
    assert (G : forall l, NoDup l -> incl l (elements t) -> exists xs, NoDup xs /\
      (forall x, In x xs <-> exists e, In e l /\ switched_off (rl_name rl) e = false /\ Q e x) /\
      Forall2 (fun r x => D x (show r)) (flat_map (fun x => of_rule (rl_name rl) (checked cf rules (fl x) x)) l) xs).
    { induction l as [|e l IH]; intros ND Il.
      - exists []. split; [constructor|]. split; [|constructor]. intros x. split; [intros []|intros (e & [] & _)].
      - inversion ND as [|? ? N1 N2]; subst. destruct (IH N2) as (xs & X1 & X2 & X3); [intros z Hz; apply Il; now right|].
        cbn [flat_map]. rewrite of_checked.
        assert (C : exists ys, NoDup ys /\ (forall x, In x ys <-> switched_off (rl_name rl) e = false /\ Q e x) /\
          Forall2 (fun r x => D x (show r)) (if switched_off (rl_name rl) e then [] else if is_node (el_tree e) then rl_node rl (mkCtx cf (fl e)) e else []) ys).
        { destruct (switched_off (rl_name rl) e).
          - exists []. split; [constructor|]. split; [|constructor]. intros x. split; [intros []|intros [X _]; discriminate X].
          - destruct (is_node (el_tree e)) eqn:En.
            + destruct (found (mkCtx cf (fl e)) e eq_refl (Hfl e) (Il e (or_introl eq_refl)) En) as (ys & Y1 & Y2 & Y3). exists ys.
              split; [exact Y1|]. split; [|exact Y3]. intros x. rewrite Y2. tauto.
            + exists []. split; [constructor|]. split; [|constructor]. intros x. split; [intros []|intros [_ X]].
              rewrite (in_node e x X) in En. discriminate En. }
        destruct C as (ys & Y1 & Y2 & Y3). exists (ys ++ xs). split; [|split].
        + apply nodup_app; [exact Y1|exact X1|]. intros x Hx X. apply Y2 in Hx as [_ Hx]. apply X2 in X as (e' & He' & _ & X). apply N1.
          now rewrite (one_node e e' x Hx X).
        + intros x. rewrite in_app_iff, Y2, X2. split.
          * intros [[X Y]|(e' & X & Y)]; [exists e; cbn [In]; auto|exists e'; cbn [In]; tauto].
          * intros (e' & [->|X] & Y & Z); [auto|]. right. exists e'. auto.
        + apply Forall2_app; assumption. }
    destruct (G (filter (seen run_hides) (elements t))) as (xs & X1 & X2 & X3).
    { apply NoDup_filter, elements_nodup. }
    { intros z Hz. now apply filter_In in Hz. }
    exists xs. split; [exact X1|]. split; [|exact X3]. intros x. rewrite X2. unfold visible. split.
    - intros (e & He & S & Hq). apply filter_In in He as [He Hs]. exists e. auto.
    - intros (e & He & (Hs & S) & Hq). exists e. rewrite filter_In. auto.
  Qed.
End Run.
Lemma exact_rule {A : Type} cf rules t results : incl rules RULE_DEFINITIONS -> NoDup (map rl_name rules) -> run_rules cf rules t = Done results ->
  forall rl, In rl rules -> (forall ctx e, rl_root rl ctx e = Done []) -> (forall ctx e, rl_token rl ctx e = []) ->
  forall (Q : elem -> A -> Prop) D,
  (forall ctx e, cx_config ctx = cf -> In e (elements t) -> is_node (el_tree e) = true ->
    exists xs, NoDup xs /\ (forall x, In x xs <-> Q e x) /\ Forall2 (fun r x => D x (show r)) (rl_node rl ctx e) xs) ->
  (forall e x, Q e x -> is_node (el_tree e) = true) -> (forall e e' x, Q e x -> Q e' x -> e = e') ->
  exactly results (rl_name rl) (fun x => exists e, In e (elements t) /\ visible (rl_name rl) e /\ Q e x) D.
Proof. intros HI HN HR rl Hin Hr Ht Q D Hf H1 H2. eapply exact_rule_flag; eauto. Qed.


(** The same for a rule that says at most one thing about a node. *)
Lemma exact_node_rule {A : Type} cf rules t results name (f : context -> elem -> option result) (Q : elem -> A -> Prop) (D : A -> shown -> Prop) :
  incl rules RULE_DEFINITIONS -> NoDup (map rl_name rules) -> run_rules cf rules t = Done results ->
  In (node_rule name f) rules ->
  (forall ctx e, cx_config ctx = cf -> In e (elements t) ->
     match f ctx e with
     | Some r => exists x, Q e x /\ (forall y, Q e y -> y = x) /\ D x (show r)
     | None => forall x, ~ Q e x
     end) ->
  (forall e x, Q e x -> is_node (el_tree e) = true) ->
  (forall e e' x, Q e x -> Q e' x -> e = e') ->
  exactly results name (fun x => exists e, In e (elements t) /\ visible name e /\ Q e x) D.
Proof.
  intros HI HN HR Hin Hf H1 H2.
  apply (exact_rule cf rules t results HI HN HR (node_rule name f) Hin); auto.
  intros ctx e Hc He Hn. specialize (Hf ctx e Hc He). cbn [node_rule rl_node]. destruct (f ctx e) as [r|].
  - destruct Hf as (x & X1 & X2 & X3). exists [x]. split; [repeat constructor; auto|]. split.
    + intros y. cbn [In]. split; [intros [<-|[]]; exact X1|]. intros Hy. left. symmetry. auto.
    + repeat constructor. exact X3.
  - exists []. split; [constructor|]. split; [|constructor]. intros x. split; [intros []|]. intros X. exact (Hf x X).
Qed.
