(** Trivia stays together: where white space or a line break follows other white space or
    another line break in the source, both are siblings in the syntax tree. *)
From Coq Require Import NArith Bool Arith Lia List.
Import ListNotations.
From Verif Require Import Text Kind Lexer ParserApi Machine TreeSpec Total PropParser.
From Verif Require Import Red RedFacts.
Local Notation length := List.length (only parsing).
Local Open Scope list_scope.

(** The tokens among elements. *)
Definition tokens_of (l : list elem) : list elem := filter (fun e => negb (is_node (el_tree e))) l.
(** White space or a line break. *)
Definition blank (e : elem) : bool := is_trivia (el_kind e).
Fixpoint together (T : list elem) : Prop :=
  match T with
  | x :: (y :: _) as r => (blank x = true -> blank y = true -> next_sibling_or_token x = Some y) /\ together r
  | _ => True
  end.

Lemma tokens_of_app a b : tokens_of (a ++ b) = tokens_of a ++ tokens_of b.
Proof. apply filter_app. Qed.

Lemma together_app : forall A B, together A -> together B ->
  (forall a x y b, A = a ++ [x] -> B = y :: b -> blank x = true -> blank y = true -> next_sibling_or_token x = Some y) ->
  together (A ++ B).
Proof.
  induction A as [|x [|x' A] IH]; intros B HA HB HL; [exact HB| |].
  - cbn [app]. destruct B as [|y B]; [exact I|]. split; [apply (HL [] x y B); reflexivity|exact HB].
  - cbn [app together] in *. destruct HA as [H1 H2]. split; [exact H1|]. apply IH; [exact H2|exact HB|].
    intros a z y b E. apply (HL (x :: a) z y b). cbn [app]. now rewrite E.
Qed.
Lemma together_split : forall a x y b, together (a ++ x :: y :: b) -> blank x = true -> blank y = true ->
  next_sibling_or_token x = Some y.
Proof.
  induction a as [|c a IH]; intros x y b H Bx By; [now apply H|]. cbn [app together] in H.
  destruct a as [|d a]; cbn [app] in *; [|apply (IH x y b); [apply H|exact Bx|exact By]].
  apply (IH x y b); [apply H|exact Bx|exact By].
Qed.

Definition tidy_tree (t : tree) : Prop := forall off p s s', scan t s = Some s' ->
  let T := tokens_of (preorder t off p) in
  together T /\
  (forall y r, T = y :: r -> blank y = true -> s = Apart \/ (s = Beside /\ y = mkElem t off p)) /\
  (forall x a, T = a ++ [x] -> blank x = true -> s' <> Apart /\ (s' = Beside -> x = mkElem t off p)) /\
  (T = [] -> s' = across s).

Lemma tidy_list : forall cs, Forall tidy_tree cs -> forall k off p left o s s', scans cs s = Some s' ->
  let T := tokens_of (flat_map preorder_elem (elems_of k off p left o cs)) in
  together T /\
  (forall y r, T = y :: r -> blank y = true -> s = Apart \/ (s = Beside /\ exists E, elems_of k off p left o cs = y :: E)) /\
  (forall x a, T = a ++ [x] -> blank x = true -> s' <> Apart) /\
  (T = [] -> s' = s \/ s' = across s).
Proof.
  intros cs F. induction F as [|c cs Hc _ IH]; intros k off p left o s s' H.
  - cbn in *. injection H as <-. repeat split; auto; [discriminate|]. intros x [|? ?] E; discriminate E.
  - cbn [scans] in H. destruct (scan c s) as [s1|] eqn:E1; [|discriminate].
    cbn [elems_of flat_map]. rewrite tokens_of_app.
    unfold preorder_elem at 1 3 5 7. cbn [el_tree el_off el_path].
    destruct (Hc o (mkCrumb k off left cs :: p) s s1 E1) as (A1 & A2 & A3 & A4).
    destruct (IH k off p (c :: left) (o + tree_len c) s1 s' H) as (B1 & B2 & B3 & B4). cbv zeta in *.
    set (T1 := tokens_of (preorder c o (mkCrumb k off left cs :: p))) in *.
    set (T2 := tokens_of (flat_map preorder_elem (elems_of k off p (c :: left) (o + tree_len c) cs))) in *.
    split; [|split; [|split]].
    + apply together_app; auto. intros a x y b Ex Ey Bx By. destruct (A3 x a Ex Bx) as [N L].
      destruct (B2 y b Ey By) as [->|(-> & E & EE)]; [now destruct N|]. rewrite (L eq_refl).
      destruct cs as [|d cs]; [discriminate EE|]. cbn [elems_of] in EE. injection EE as <- _. reflexivity.
    + intros y r E By. destruct T1 as [|y1 r1] eqn:ET.
      * specialize (A4 eq_refl). cbn [app] in E. destruct (B2 y r E By) as [->|(-> & _)]; destruct s; auto; discriminate A4.
      * cbn [app] in E. injection E as -> _. destruct (A2 y r1 eq_refl By) as [->|(-> & ->)]; [auto|]. right. eauto.
    + intros x a E Bx. destruct T2 as [|y2 r2] eqn:ET.
      * rewrite app_nil_r in E. destruct (A3 x a E Bx) as [N _]. destruct (B4 eq_refl) as [->| ->]; [exact N|]. now destruct s1.
      * destruct (exists_last (l := y2 :: r2)) as (b & z & Ez); [discriminate|]. rewrite Ez, app_assoc in E. apply app_inj_tail in E as [_ ->].
        apply (B3 x b Ez Bx).
    + intros E. apply app_eq_nil in E as [-> E2]. specialize (A4 eq_refl). destruct (B4 E2) as [-> | ->]; subst s1; [now right|]. right. apply across_idem.
Qed.

Lemma tidy_all : forall t, tidy_tree t.
Proof.
  induction t as [k w|k cs IH] using tree_induction; intros off p s s' H.
  - cbv zeta. change (tokens_of (preorder (Leaf k w) off p)) with [mkElem (Leaf k w) off p]. split; [exact I|]. cbn [scan] in H. split; [|split].
    + intros y r E By. injection E as <- _. unfold blank, el_kind in By. cbn [el_tree tree_kind] in By. rewrite By in H. destruct s; auto. discriminate H.
    + intros x a E Bx. destruct a as [|? [|? ?]]; try discriminate E. injection E as <-. unfold blank, el_kind in Bx. cbn [el_tree tree_kind] in Bx.
      rewrite Bx in H. split; [destruct s; congruence|auto].
    + discriminate.
  - cbv zeta. rewrite scan_node in H. destruct (scans cs (across s)) as [s1|] eqn:E1; [|discriminate]. injection H as <-.
    rewrite preorder_children. cbn [tokens_of filter is_node el_tree negb]. fold (tokens_of (flat_map preorder_elem (children_with_tokens (mkElem (Node k cs) off p)))).
    unfold children_with_tokens. cbn [el_tree el_off el_path].
    destruct (tidy_list cs IH k off p [] off (across s) s1 E1) as (B1 & B2 & B3 & B4). cbv zeta in *. split; [exact B1|]. split; [|split].
    + intros y r E By. destruct (B2 y r E By) as [X|(X & _)]; destruct s; auto; discriminate X.
    + intros x a E Bx. specialize (B3 x a E Bx). destruct s1; split; try discriminate; auto; now destruct B3.
    + intros E. destruct (B4 E) as [-> | ->]; now rewrite !across_idem.
Qed.

(** Adjacent tokens of white space or line breaks are siblings. *)
Theorem C08_white_space_stays_together : forall dbg src t errs, parse_src dbg src = OK (t, errs) ->
  forall a x y b, tokens_of (elements t) = a ++ x :: y :: b -> blank x = true -> blank y = true ->
  next_sibling_or_token x = Some y.
Proof.
  intros dbg src t errs H a x y b E Bx By. assert (R : exists cs, t = Node ROOT cs).
  { destruct (C02_parse_lossless _ _ _ _ H) as [K _]. destruct (outcome dbg src) as [(cs & es & X & _)|(q & X & _)]; rewrite H in X; [|discriminate X].
    injection X as -> _. eauto. }
  destruct R as [cs ->]. pose proof (parse_tidy _ _ _ _ H) as S.
  destruct (scans cs Apart) as [s|] eqn:ES; [|now destruct S].
  destruct (tidy_all (Node ROOT cs) 0 [] Apart (across s)) as (T & _); [rewrite scan_node; cbn [across]; now rewrite ES|].
  fold (elements (Node ROOT cs)) in T. rewrite E in T. eapply together_split; eauto.
Qed.
Example C08_case_together :
  match parse_src true [60; 112; 62; 32; 10; 32; 60; 47; 112; 62]%N with
  | OK (t, _) => map (fun x => (blank x, match next_sibling_or_token x with Some y => el_start y =? el_end x | None => false end)) (tokens_of (elements t))
  | _ => []
  end = [(false, true); (false, true); (false, false); (true, true); (true, true); (true, true); (false, true); (false, true); (false, false)].
Proof. vm_compute. reflexivity. Qed.
Print Assumptions C08_white_space_stays_together.
