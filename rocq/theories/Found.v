(** What the rules that look at single nodes are there to find: a specification in terms of the
    syntax tree, to be read next to [Schema.v], and the facts about trees needed to use it. *)
From Coq Require Import NArith String Bool Arith Lia List.
Import ListNotations.
From Verif Require Import Text Kind Lexer LexerProofs ParserApi Machine TreeSpec.
From Verif Require Schema PropShape PropSkel.
From Verif Require Import Red Typed Rule Rules Check RedFacts WalkSpec PropRun PropOff.
Local Notation length := List.length (only parsing).
Local Open Scope list_scope.

(** * The specification *)

(** A node and a token of kind [k]. *)
Definition a_node (k : kind) (e : elem) : Prop := exists cs, el_tree e = Node k cs.
Definition a_token (k : kind) (e : elem) : Prop := exists s, el_tree e = Leaf k s.

(** The children that count (see [Schema.content]). *)
Definition counts (t : tree) : bool := match t with Leaf k _ => negb (Schema.junk k) | Node _ _ => true end.
Definition parts (e : elem) : list elem := filter (fun c => counts (el_tree c)) (children_with_tokens e).

(** A rule is asked about an element if no ignore directive applies to it and it is outside of
    error nodes (see C15). *)
Definition visible (rule : text) (e : elem) : Prop :=
  seen run_hides e = true /\ switched_off rule e = false.

(** What a report shows: how bad it is, where it is and what should be changed. *)
Record shown : Set := mkShown
  { sh_severity : severity; sh_where : option (nat * nat); sh_edits : list (nat * nat * text) }.
Definition show (r : result) : shown :=
  mkShown (rs_severity r) (option_map (fun n => (nt_start n, nt_end n)) (rs_primary r))
          (map (fun s => (sg_start s, sg_end s, sg_text s)) (rs_suggestions r)).

(** The reports of the rule [rule] are exactly one for each [x] with [P x], and the report for [x]
    looks like [D x]. *)
Definition exactly {A : Type} (results : list result) (rule : text) (P : A -> Prop) (D : A -> shown -> Prop) : Prop :=
  exists xs, NoDup xs /\ (forall x, In x xs <-> P x) /\
    Forall2 (fun r x => D x (show r)) (filter (fun r => text_eqb (rs_rule r) rule) results) xs.

(** A report at [e] without a suggestion; a report at [e] with a replacement for [e]. *)
Definition at_element (s : severity) (e : elem) (x : shown) : Prop :=
  x = mkShown s (Some (el_start e, el_end e)) [].
Definition replaced_by (s : severity) (new : text) (e : elem) (x : shown) : Prop :=
  x = mkShown s (Some (el_start e, el_end e)) [(el_start e, el_end e, new)].

(** * Facts *)

Lemma a_node_kind k e : a_node k e <-> is_node (el_tree e) && kind_eqb (el_kind e) k = true.
Proof.
  unfold a_node, el_kind. destruct (el_tree e) as [k' s|k' cs]; cbn [is_node tree_kind andb].
  - split; [intros (cs & H); discriminate H|discriminate].
  - split; [intros (cs' & [= -> _]); apply kind_eqb_eq; reflexivity|]. intros H. apply kind_eqb_eq in H. subst. eauto.
Qed.
Lemma a_token_kind k e : a_token k e <-> negb (is_node (el_tree e)) && kind_eqb (el_kind e) k = true.
Proof.
  unfold a_token, el_kind. destruct (el_tree e) as [k' s|k' cs]; cbn [is_node tree_kind andb negb].
  - split; [intros (cs' & [= -> _]); apply kind_eqb_eq; reflexivity|]. intros H. apply kind_eqb_eq in H. subst. eauto.
  - split; [intros (s & H); discriminate H|discriminate].
Qed.
Lemma a_node_inj k k' e : a_node k e -> a_node k' e -> k = k'.
Proof. intros (cs & H) (cs' & H'). rewrite H in H'. now injection H'. Qed.
Lemma node_not_token k k' e : a_node k e -> a_token k' e -> False.
Proof. intros (cs & H) (s & H'). rewrite H in H'. discriminate. Qed.

Lemma cast_iff k e x : cast k e = Some x <-> x = e /\ a_node k e.
Proof.
  unfold cast. rewrite a_node_kind. destruct (is_node (el_tree e) && kind_eqb (el_kind e) k).
  - split; [intros [= ->]; auto|intros [-> _]; reflexivity].
  - split; [discriminate|intros [_ H]; discriminate H].
Qed.
Lemma cast_node k e : a_node k e -> cast k e = Some e.
Proof. intros H. apply cast_iff. auto. Qed.

Lemma parts_children e x : In x (parts e) -> In x (children_with_tokens e).
Proof. apply filter_In. Qed.
Lemma part_parent e x : In x (parts e) -> parent x = Some e.
Proof. intros H. apply parts_children, children_path in H as (c & _ & H). exact H. Qed.
Lemma part_element t e x : In e (elements t) -> In x (parts e) -> In x (elements t).
Proof. intros H Hx. apply within_elements. eapply within_children; [apply elements_within; exact H|apply parts_children, Hx]. Qed.
Lemma element_subtree t e : In e (elements t) -> subtree (el_tree e) t.
Proof. intros H. destruct e as [x off p]. apply elements_within in H. eapply PropSkel.within_subtree, H. Qed.

Lemma find_filter_eq {A} (f g : A -> bool) l : (forall x, f x = true -> g x = true) -> find f (filter g l) = find f l.
Proof.
  intros H. induction l as [|x l IH]; [reflexivity|]. cbn [filter find]. destruct (g x) eqn:G; cbn [find].
  - destruct (f x); auto.
  - destruct (f x) eqn:F; [|exact IH]. rewrite (H x F) in G. discriminate.
Qed.
Lemma filter_filter_eq {A} (f g : A -> bool) l : (forall x, f x = true -> g x = true) -> filter f (filter g l) = filter f l.
Proof.
  intros H. induction l as [|x l IH]; [reflexivity|]. cbn [filter]. destruct (g x) eqn:G; cbn [filter].
  - destruct (f x); [now rewrite IH|exact IH].
  - destruct (f x) eqn:F; [|exact IH]. rewrite (H x F) in G. discriminate.
Qed.

(** The accessors see the parts only. *)
Definition node_of (k : kind) (e : elem) : bool := is_node (el_tree e) && kind_eqb (el_kind e) k.
Definition token_of (k : kind) (e : elem) : bool := negb (is_node (el_tree e)) && kind_eqb (el_kind e) k.

Lemma filter_and {A} (f g : A -> bool) l : filter f (filter g l) = filter (fun x => g x && f x) l.
Proof.
  induction l as [|x l IH]; [reflexivity|]. cbn [filter]. destruct (g x); cbn [filter andb]; [|exact IH].
  destruct (f x); now rewrite IH.
Qed.
Lemma node_counts k e : node_of k e = true -> counts (el_tree e) = true.
Proof. unfold node_of. destruct (el_tree e); [discriminate|reflexivity]. Qed.
Lemma token_counts k e : Schema.junk k = false -> token_of k e = true -> counts (el_tree e) = true.
Proof.
  intros J. unfold token_of, el_kind. destruct (el_tree e); [|discriminate]. cbn [is_node negb andb tree_kind counts]. intros H.
  apply kind_eqb_eq in H. subst. now rewrite J.
Qed.
Lemma support_children_parts k e : support_children k e = filter (node_of k) (parts e).
Proof.
  unfold support_children, child_nodes, parts. rewrite (filter_filter_eq (node_of k)) by (intros x; apply node_counts). apply filter_and.
Qed.
Lemma support_child_parts k e : support_child k e = find (node_of k) (parts e).
Proof.
  unfold support_child, child_nodes, parts. rewrite (find_filter_eq (node_of k)) by (intros x; apply node_counts). apply find_filter.
Qed.
Lemma support_token_parts k e : Schema.junk k = false -> support_token k e = find (token_of k) (parts e).
Proof.
  intros J. unfold support_token, child_tokens, parts. rewrite (find_filter_eq (token_of k)) by (intros x; now apply token_counts). apply find_filter.
Qed.

Lemma node_of_true k e : a_node k e -> node_of k e = true.
Proof. apply a_node_kind. Qed.
Lemma node_of_false k k' e : a_node k' e -> k' <> k -> node_of k e = false.
Proof.
  intros H N. destruct (node_of k e) eqn:E; [|reflexivity]. apply a_node_kind in E. exfalso. apply N. eapply a_node_inj; eauto.
Qed.
Lemma node_of_token k k' e : a_token k' e -> node_of k e = false.
Proof. intros (s & H). unfold node_of. now rewrite H. Qed.
Lemma token_of_true k e : a_token k e -> token_of k e = true.
Proof. apply a_token_kind. Qed.
Lemma token_of_node k k' e : a_node k' e -> token_of k e = false.
Proof. intros (s & H). unfold token_of. now rewrite H. Qed.
Lemma token_of_false k k' e : a_token k' e -> k' <> k -> token_of k e = false.
Proof.
  intros H N. destruct (token_of k e) eqn:E; [|reflexivity]. apply a_token_kind in E. destruct H as (s & H), E as (s' & E).
  rewrite H in E. now injection E.
Qed.

(** The parts and the content of [Schema.v]. *)
Definition is_sym (s : Schema.sym) (e : elem) : Prop :=
  match s with Schema.Tok k => a_token k e | Schema.Nd k => a_node k e end.
Lemma parts_content e : Forall2 is_sym (Schema.content (children (el_tree e))) (parts e).
Proof.
  rewrite <- children_with_tokens_trees. unfold parts, Schema.content. induction (children_with_tokens e) as [|x l IH]; [constructor|].
  cbn [map flat_map filter]. destruct (el_tree x) as [k s|k cs] eqn:E; cbn [Schema.symbol counts].
  - destruct (Schema.junk k); cbn [negb app]; [exact IH|]. constructor; [exists s; exact E|exact IH].
  - cbn [app]. constructor; [exists cs; exact E|exact IH].
Qed.

(** * Elements are distinct *)
Lemma elems_of_nodup k off p : forall cs l o, NoDup (elems_of k off p l o cs).
Proof.
  assert (G : forall cs l o x, In x (elems_of k off p l o cs) -> length l <= left_count x).
  { induction cs as [|c cs IH]; intros l o x; cbn [elems_of In]; [tauto|]. intros [<-|H]; [apply le_n|].
    apply IH in H. cbn [List.length] in H. lia. }
  induction cs as [|c cs IH]; intros l o; cbn [elems_of]; constructor; [|apply IH].
  intros H. apply G in H. unfold left_count in H. cbn [el_path cr_left] in H. cbn [List.length] in H. lia.
Qed.
Lemma children_nodup e : NoDup (children_with_tokens e).
Proof. unfold children_with_tokens. destruct (el_tree e); [constructor|apply elems_of_nodup]. Qed.
Lemma parts_nodup e : NoDup (parts e).
Proof. apply NoDup_filter, children_nodup. Qed.

Lemma nodup_app {B} (l1 l2 : list B) : NoDup l1 -> NoDup l2 -> (forall b, In b l1 -> ~ In b l2) -> NoDup (l1 ++ l2).
Proof.
  induction 1 as [|x l N _ IH]; intros H2 H; [exact H2|]. cbn [app]. constructor.
  - rewrite in_app_iff. intros [X|X]; [auto|]. exact (H x (or_introl eq_refl) X).
  - apply IH; [exact H2|]. intros b Hb. apply H. right. exact Hb.
Qed.
Lemma nodup_flat_map {A B} (f : A -> list B) l : NoDup l -> (forall x, In x l -> NoDup (f x)) ->
  (forall x y b, In x l -> In y l -> In b (f x) -> In b (f y) -> x = y) -> NoDup (flat_map f l).
Proof.
  induction 1 as [|x l N _ IH]; intros H1 H2; [constructor|]. cbn [flat_map].
  apply nodup_app.
  - apply H1. left. reflexivity.
  - apply IH; intros; [apply H1|apply (H2 x0 y b)]; try (right; assumption); assumption.
  - intros b Hb X. apply in_flat_map in X as (y & Hy & X). apply N.
    rewrite (H2 x y b); auto; [left; reflexivity|right; exact Hy].
Qed.

Lemma preorder_nodup : forall e, NoDup (preorder_elem e).
Proof.
  apply elem_induction. intros e IH. rewrite preorder_elem_unfold. constructor.
  - intros H. apply in_flat_map in H as (x & Hx & H). destruct (lineage_below_strict e x e Hx H) as (l & E).
    apply (f_equal (@List.length _)) in E. cbn [List.length] in E. rewrite app_length in E. lia.
  - apply nodup_flat_map; [apply children_nodup|exact IH|].
    intros x y b Hx Hy Bx By. destruct (lineage_below x b Bx) as (l1 & E1). destruct (lineage_below y b By) as (l2 & E2).
    rewrite (lineage_child e x Hx) in E1. rewrite (lineage_child e y Hy) in E2. rewrite E1 in E2.
    assert (L : length l1 = length l2).
    { apply (f_equal (@List.length _)) in E2. rewrite !app_length in E2. cbn [List.length] in E2. lia. }
    revert l2 E2 L. clear. induction l1 as [|z l1 IH]; intros [|z2 l2] E L; try discriminate L.
    + now injection E.
    + injection E as _ E. injection L as L. eauto.
Qed.
Lemma elements_nodup t : NoDup (elements t).
Proof. apply (preorder_nodup (root_elem t)). Qed.

(** * Children lie one after the other *)
From Coq Require Import Sorting.Sorted.
Definition before (a b : elem) : Prop := el_end a <= el_start b /\ left_count a < left_count b.
Lemma elems_of_sorted k off p : forall cs l o, StronglySorted before (elems_of k off p l o cs).
Proof.
  assert (G : forall cs l o x, In x (elems_of k off p l o cs) -> length l <= left_count x /\ o <= el_start x).
  { induction cs as [|c cs IH]; intros l o x; cbn [elems_of In]; [tauto|]. intros [<-|H]; [split; apply le_n|].
    apply IH in H. cbn [List.length] in H. lia. }
  induction cs as [|c cs IH]; intros l o; cbn [elems_of]; constructor; [apply IH|].
  apply Forall_forall. intros x H. apply G in H. unfold before, el_end, el_start, left_count in *. cbn [el_path cr_left el_off el_tree List.length] in *. lia.
Qed.
Lemma sorted_filter {A} (R : A -> A -> Prop) f l : StronglySorted R l -> StronglySorted R (filter f l).
Proof.
  induction 1 as [|x l _ IH F]; [constructor|]. cbn [filter]. destruct (f x); [|exact IH]. constructor; [exact IH|].
  apply Forall_forall. intros y Hy. apply filter_In in Hy as [Hy _]. rewrite Forall_forall in F. auto.
Qed.
Lemma children_sorted e : StronglySorted before (children_with_tokens e).
Proof. unfold children_with_tokens. destruct (el_tree e); [constructor|apply elems_of_sorted]. Qed.
Lemma parts_sorted e : StronglySorted before (parts e).
Proof. apply sorted_filter, children_sorted. Qed.
Lemma sorted_inj e x y : In x (children_with_tokens e) -> In y (children_with_tokens e) -> left_count x = left_count y -> x = y.
Proof.
  pose proof (children_sorted e) as S. induction S as [|z l _ IH F]; [intros []|]. rewrite Forall_forall in F.
  intros [<-|Hx] [<-|Hy] E; auto.
  - destruct (F y Hy). lia.
  - destruct (F x Hx). lia.
Qed.
Lemma parent_children t e p : In e (elements t) -> parent e = Some p -> In e (children_with_tokens p).
Proof.
  intros He E. destruct (elements_within _ _ He) as [_ Hp]. destruct e as [x off [|[k o l r] path]]; [discriminate E|].
  unfold parent in E. cbn [el_path el_tree el_off cr_kind cr_left cr_right cr_off placed] in *. injection E as <-. destruct Hp as [-> _].
  rewrite rev_append_rev. unfold children_with_tokens. cbn [el_tree el_off el_path].
  pose proof (elems_of_in k o path (rev l) x r o []) as G. rewrite rev_involutive, app_nil_r in G. apply G. cbn. lia.
Qed.
