(** Facts about positioned elements and walks. *)
From Coq Require Import NArith Bool Arith Lia List.
Import ListNotations.
From Verif Require Import Text Kind LexerProofs Machine TreeSpec Red Typed.
Local Open Scope list_scope.

(** * Induction on trees *)
Section TreeInd.
  Context (P : tree -> Prop).
  Context (HL : forall k s, P (Leaf k s)).
  Context (HN : forall k cs, Forall P cs -> P (Node k cs)).
  Fixpoint tree_induction (t : tree) : P t :=
    match t with
    | Leaf k s => HL k s
    | Node k cs => HN k cs ((fix go (l : list tree) : Forall P l :=
        match l with [] => Forall_nil P | c :: r => Forall_cons c (tree_induction c) (go r) end) cs)
    end.
End TreeInd.

(** * Lengths *)

Definition trees_text (cs : list tree) : text := flat_map tree_text cs.
Definition trees_len (cs : list tree) : nat := fold_right (fun c n => tree_len c + n) 0 cs.

Lemma tree_text_node k cs : tree_text (Node k cs) = trees_text cs.
Proof.
  unfold tree_text, trees_text. cbn [leaves].
  induction cs as [|c cs IH]; cbn [flat_map]; [reflexivity|].
  rewrite map_app, concat_app, IH. reflexivity.
Qed.
Lemma tree_text_leaf k s : tree_text (Leaf k s) = s.
Proof. unfold tree_text. cbn. apply app_nil_r. Qed.
Lemma tree_len_node k cs : tree_len (Node k cs) = trees_len cs.
Proof. reflexivity. Qed.

Lemma tree_len_text t : tree_len t = blen (tree_text t).
Proof.
  induction t as [k s|k cs IH] using tree_induction.
  - rewrite tree_text_leaf. reflexivity.
  - rewrite tree_text_node, tree_len_node. unfold trees_len, trees_text.
    induction IH as [|c cs Hc _ IHl]; cbn [fold_right flat_map]; [reflexivity|].
    rewrite blen_app, Hc, IHl. reflexivity.
Qed.
Lemma trees_len_text cs : trees_len cs = blen (trees_text cs).
Proof. rewrite <- (tree_len_node ROOT), tree_len_text, tree_text_node. reflexivity. Qed.
Lemma trees_text_app a b : trees_text (a ++ b) = trees_text a ++ trees_text b.
Proof. unfold trees_text. apply flat_map_app. Qed.
Lemma trees_len_app a b : trees_len (a ++ b) = trees_len a + trees_len b.
Proof. rewrite !trees_len_text, trees_text_app, blen_app. reflexivity. Qed.
Lemma trees_len_rev a : trees_len (rev a) = trees_len a.
Proof.
  induction a as [|c a IH]; [reflexivity|]. cbn [rev].
  rewrite trees_len_app, IH. unfold trees_len. cbn. lia.
Qed.

Lemma el_end_text e : el_end e = el_start e + blen (el_text e).
Proof. unfold el_end, el_start, el_text. rewrite tree_len_text. reflexivity. Qed.

(** * Children *)
Lemma elems_of_trees k off p left o cs : map el_tree (elems_of k off p left o cs) = cs.
Proof.
  revert left o. induction cs as [|c cs IH]; intros; cbn [elems_of map el_tree]; [reflexivity|].
  rewrite IH. reflexivity.
Qed.
Lemma children_with_tokens_trees e : map el_tree (children_with_tokens e) = children (el_tree e).
Proof.
  unfold children_with_tokens. destruct (el_tree e) as [k s|k cs]; [reflexivity|].
  apply elems_of_trees.
Qed.
Lemma filter_map_tree (f : tree -> bool) l :
  map el_tree (filter (fun e => f (el_tree e)) l) = filter f (map el_tree l).
Proof.
  induction l as [|e l IH]; [reflexivity|]. cbn [filter map].
  destruct (f (el_tree e)); cbn [map]; rewrite IH; reflexivity.
Qed.
Lemma child_nodes_trees e : map el_tree (child_nodes e) = filter is_node (children (el_tree e)).
Proof. unfold child_nodes. rewrite filter_map_tree, children_with_tokens_trees. reflexivity. Qed.
Lemma support_children_trees k e :
  map el_tree (support_children k e)
  = filter (fun c => is_node c && kind_eqb (tree_kind c) k) (children (el_tree e)).
Proof.
  unfold support_children.
  change (fun c : elem => kind_eqb (el_kind c) k) with (fun c : elem => kind_eqb (tree_kind (el_tree c)) k).
  rewrite (filter_map_tree (fun t => kind_eqb (tree_kind t) k)), child_nodes_trees.
  induction (children (el_tree e)) as [|c l IH]; [reflexivity|]. cbn [filter].
  destruct (is_node c); cbn [filter andb]; [destruct (kind_eqb (tree_kind c) k)|]; rewrite IH; reflexivity.
Qed.
Lemma find_map_tree (f : tree -> bool) l :
  option_map el_tree (find (fun e => f (el_tree e)) l) = find f (map el_tree l).
Proof.
  induction l as [|e l IH]; [reflexivity|]. cbn [find map].
  destruct (f (el_tree e)); [reflexivity|exact IH].
Qed.
Lemma find_filter {A} (f g : A -> bool) l : find f (filter g l) = find (fun x => g x && f x) l.
Proof.
  induction l as [|x l IH]; [reflexivity|]. cbn [filter find].
  destruct (g x) eqn:G; cbn [find andb]; [destruct (f x); [reflexivity|exact IH]|exact IH].
Qed.
Lemma support_child_tree k e :
  option_map el_tree (support_child k e)
  = find (fun c => is_node c && kind_eqb (tree_kind c) k) (children (el_tree e)).
Proof.
  unfold support_child.
  change (fun c : elem => kind_eqb (el_kind c) k) with (fun c : elem => kind_eqb (tree_kind (el_tree c)) k).
  rewrite (find_map_tree (fun t => kind_eqb (tree_kind t) k)), child_nodes_trees.
  apply find_filter.
Qed.
Lemma child_tokens_trees e :
  map el_tree (child_tokens e) = filter (fun c => negb (is_node c)) (children (el_tree e)).
Proof.
  unfold child_tokens.
  rewrite (filter_map_tree (fun t => negb (is_node t))), children_with_tokens_trees. reflexivity.
Qed.

(** The names in a directive depend only on its tree. *)
Definition tree_words (t : tree) : list text :=
  map tree_text (filter (fun c => negb (is_node c) && kind_eqb (tree_kind c) TK_WORD) (children t)).
Definition tree_rules (t : tree) : list text :=
  match find (fun c => is_node c && kind_eqb (tree_kind c) LUDTWIG_DIRECTIVE_RULE_LIST) (children t) with
  | Some l => tree_words l
  | None => []
  end.
Lemma get_rule_names_tree e : get_rule_names e = tree_words (el_tree e).
Proof.
  unfold get_rule_names, tree_words.
  change el_text with (fun x => tree_text (el_tree x)). rewrite <- (map_map el_tree tree_text).
  change (fun t : elem => kind_eqb (el_kind t) TK_WORD)
    with (fun t : elem => kind_eqb (tree_kind (el_tree t)) TK_WORD).
  rewrite (filter_map_tree (fun t => kind_eqb (tree_kind t) TK_WORD)), child_tokens_trees.
  f_equal. induction (children (el_tree e)) as [|c l IH]; [reflexivity|]. cbn [filter].
  destruct (is_node c); cbn [negb filter andb]; [exact IH|].
  destruct (kind_eqb (tree_kind c) TK_WORD); rewrite IH; reflexivity.
Qed.
Lemma get_rules_tree e : get_rules e = tree_rules (el_tree e).
Proof.
  unfold get_rules, tree_rules. rewrite <- support_child_tree.
  destruct (support_child LUDTWIG_DIRECTIVE_RULE_LIST e) as [l|]; cbn [option_map]; [|reflexivity].
  apply get_rule_names_tree.
Qed.

(** * Walks *)
Section WalkFacts.
  Context {S : Type} (tokens : bool).
  Context (enter : S -> elem -> out (S * bool)) (leave : S -> elem -> out S).

  Fixpoint walk_children (k : kind) (off : nat) (p : list crumb)
    (left : list tree) (o : nat) (cs : list tree) (s : S) : out S :=
    match cs with
    | [] => Done s
    | c :: r =>
      match (if tokens || is_node c
             then walk tokens enter leave c o (mkCrumb k off left r :: p) s else Done s) with
      | Crashed => Crashed
      | Done s' => walk_children k off p (c :: left) (o + tree_len c) r s'
      end
    end.

  Definition walk_below (t : tree) (off : nat) (p : list crumb) (s : S) : out S :=
    match t with
    | Leaf _ _ => Done s
    | Node k cs => walk_children k off p [] off cs s
    end.

  Lemma walk_unfold t off p s :
    walk tokens enter leave t off p s =
    match enter s (mkElem t off p) with
    | Crashed => Crashed
    | Done (s1, skip) =>
      match (if skip then Done s1 else walk_below t off p s1) with
      | Crashed => Crashed
      | Done s2 => leave s2 (mkElem t off p)
      end
    end.
  Proof.
    destruct t as [k x|k cs]; cbn [walk walk_below]; [reflexivity|].
    destruct (enter s (mkElem (Node k cs) off p)) as [[s1 skip]|]; [|reflexivity].
    destruct skip; [reflexivity|].
    match goal with |- match ?a with _ => _ end = match ?b with _ => _ end => replace a with b; [reflexivity|] end.
    match goal with |- _ = ?g _ _ _ _ =>
      assert (H : forall cs' l o s', walk_children k off p l o cs' s' = g l o cs' s') end.
    { induction cs' as [|c cs' IH]; intros l o s'; cbn [walk_children]; [reflexivity|].
      destruct (if tokens || is_node c then _ else _) as [s''|]; [|reflexivity].
      rewrite IH. reflexivity. }
    apply H.
  Qed.
End WalkFacts.

(** * Elements of a tree

    [within root e]: [e] is an element of the tree [root], at its place. *)
Fixpoint rebuild (t : tree) (p : list crumb) : tree :=
  match p with
  | [] => t
  | c :: p' => rebuild (Node (cr_kind c) (rev (cr_left c) ++ t :: cr_right c)) p'
  end.
Fixpoint placed (off : nat) (p : list crumb) : Prop :=
  match p with
  | [] => off = 0
  | c :: p' => off = cr_off c + trees_len (cr_left c) /\ placed (cr_off c) p'
  end.
Definition within (root : tree) (e : elem) : Prop :=
  rebuild (el_tree e) (el_path e) = root /\ placed (el_off e) (el_path e).

Lemma within_root root : within root (root_elem root).
Proof. split; reflexivity. Qed.

Lemma within_parent root e p : within root e -> parent e = Some p -> within root p.
Proof.
  unfold parent. destruct e as [t off [|c path]]; cbn [el_path el_tree el_off]; [discriminate|].
  intros [H1 H2] E. injection E as <-. cbn [rebuild placed el_path el_tree el_off] in *.
  destruct H2 as [H2 H3]. split; cbn [rebuild placed el_path el_tree el_off];
    [rewrite rev_append_rev|]; assumption.
Qed.

Lemma within_prev root e x : within root e -> prev_sibling_or_token e = Some x -> within root x.
Proof.
  unfold prev_sibling_or_token. destruct e as [t off [|[k o l r] path]]; cbn [el_path el_tree el_off]; [discriminate|].
  cbn [cr_left cr_right cr_kind cr_off]. destruct l as [|y l]; [discriminate|].
  intros [H1 H2] E. injection E as <-.
  cbn [rebuild placed el_path el_tree el_off cr_left cr_right cr_kind cr_off rev] in *.
  destruct H2 as [H2 H3]. split; cbn [rebuild placed el_path el_tree el_off cr_left cr_right cr_kind cr_off].
  - rewrite <- app_assoc in H1. exact H1.
  - split; [|exact H3]. cbn [trees_len fold_right] in H2. unfold trees_len in *. cbn [fold_right] in H2. lia.
Qed.

Lemma within_next root e x : within root e -> next_sibling_or_token e = Some x -> within root x.
Proof.
  unfold next_sibling_or_token. destruct e as [t off [|[k o l r] path]]; cbn [el_path el_tree el_off]; [discriminate|].
  cbn [cr_left cr_right cr_kind cr_off]. destruct r as [|y r]; [discriminate|].
  intros [H1 H2] E. injection E as <-.
  cbn [rebuild placed el_path el_tree el_off cr_left cr_right cr_kind cr_off rev] in *.
  destruct H2 as [H2 H3]. split; cbn [rebuild placed el_path el_tree el_off cr_left cr_right cr_kind cr_off rev].
  - rewrite <- app_assoc. exact H1.
  - split; [|exact H3]. unfold trees_len in *. cbn [fold_right]. lia.
Qed.

Lemma within_until root step n e x :
  (forall a b, within root a -> step a = Some b -> within root b) ->
  within root e -> until_node step n e = Some x -> within root x.
Proof.
  intros Hs. revert e. induction n as [|n IH]; intros e He; cbn [until_node]; [discriminate|].
  destruct (step e) as [y|] eqn:E; [|discriminate]. pose proof (Hs _ _ He E) as Hy.
  destruct (is_node (el_tree y)); [intros [= <-]; exact Hy|apply IH; exact Hy].
Qed.
Lemma within_prev_sibling root e x : within root e -> prev_sibling e = Some x -> within root x.
Proof. apply within_until. intros. eapply within_prev; eassumption. Qed.
Lemma within_next_sibling root e x : within root e -> next_sibling e = Some x -> within root x.
Proof. apply within_until. intros. eapply within_next; eassumption. Qed.

(** The element of the child that [left] precedes and [r] follows. *)
Lemma within_child_at root k left c r off p :
  within root (mkElem (Node k (rev left ++ c :: r)) off p) ->
  within root (mkElem c (off + trees_len left) (mkCrumb k off left r :: p)).
Proof.
  intros [H1 H2]. cbn [el_tree el_path el_off] in *.
  split; cbn [rebuild placed el_path el_tree el_off cr_left cr_right cr_kind cr_off]; [exact H1|].
  split; [reflexivity|exact H2].
Qed.

Lemma within_elems_of root k off p left cs e :
  within root (mkElem (Node k (rev left ++ cs)) off p) ->
  In e (elems_of k off p left (off + trees_len left) cs) -> within root e.
Proof.
  revert left. induction cs as [|c cs IH]; intros left H; cbn [elems_of In]; [tauto|].
  intros [<-|Hin].
  - apply within_child_at. exact H.
  - apply (IH (c :: left)); [cbn [rev]; rewrite <- app_assoc; exact H|].
    unfold trees_len in *. cbn [fold_right]. rewrite (Nat.add_comm (tree_len c)), Nat.add_assoc. exact Hin.
Qed.
Lemma within_children root e x : within root e -> In x (children_with_tokens e) -> within root x.
Proof.
  unfold children_with_tokens. destruct e as [[k s|k cs] off p]; cbn [el_tree el_off el_path]; [contradiction|].
  intros H Hin. apply (within_elems_of root k off p [] cs); [exact H|].
  cbn [trees_len fold_right]. rewrite Nat.add_0_r. exact Hin.
Qed.
Lemma within_child_nodes root e x : within root e -> In x (child_nodes e) -> within root x.
Proof. intros H Hin. apply filter_In in Hin. eapply within_children; [exact H|apply Hin]. Qed.
Lemma within_child_tokens root e x : within root e -> In x (child_tokens e) -> within root x.
Proof. intros H Hin. apply filter_In in Hin. eapply within_children; [exact H|apply Hin]. Qed.
Lemma within_support_children root k e x : within root e -> In x (support_children k e) -> within root x.
Proof. intros H Hin. apply filter_In in Hin. eapply within_child_nodes; [exact H|apply Hin]. Qed.
Lemma within_support_child root k e x : within root e -> support_child k e = Some x -> within root x.
Proof. intros H E. apply find_some in E. eapply within_child_nodes; [exact H|apply E]. Qed.
Lemma within_support_token root k e x : within root e -> support_token k e = Some x -> within root x.
Proof. intros H E. apply find_some in E. eapply within_child_tokens; [exact H|apply E]. Qed.
Lemma cast_same k e x : cast k e = Some x -> x = e.
Proof. unfold cast. destruct (_ && _); congruence. Qed.
Lemma within_cast root k e x : within root e -> cast k e = Some x -> within root x.
Proof. intros H E. apply cast_same in E. subst. exact H. Qed.

Lemma within_first_token_at root t : forall off p x,
  within root (mkElem t off p) -> first_token_at t off p = Some x -> within root x.
Proof.
  induction t as [k s|k cs IH] using tree_induction; intros off p x H; cbn [first_token_at].
  - intros [= <-]. exact H.
  - destruct cs as [|c cs]; [discriminate|]. inversion IH; subst.
    intros E. apply (H2 _ _ _) in E; [exact E|].
    pose proof (within_child_at root k [] c cs off p H) as H'.
    cbn [trees_len fold_right] in H'. rewrite Nat.add_0_r in H'. exact H'.
Qed.
Lemma within_first_token root e x : within root e -> first_token e = Some x -> within root x.
Proof. destruct e. apply within_first_token_at. Qed.

Lemma within_last_token_at root t : forall off p x,
  within root (mkElem t off p) -> last_token_at t off p = Some x -> within root x.
Proof.
  induction t as [k s|k cs IH] using tree_induction; intros off p x H; cbn [last_token_at].
  - intros [= <-]. exact H.
  - match goal with |- ?g _ _ _ = _ -> _ =>
      assert (G : forall cs' left, Forall (fun t => forall off p x, within root (mkElem t off p) ->
           last_token_at t off p = Some x -> within root x) cs' ->
         within root (mkElem (Node k (rev left ++ cs')) off p) ->
         g left (off + trees_len left) cs' = Some x -> within root x) end.
    { induction cs' as [|c cs' IHl]; intros left HF Hw; [discriminate|].
      inversion HF; subst. destruct cs' as [|d cs'].
      - intros E. eapply H2; [|exact E]. apply within_child_at. exact Hw.
      - intros E. apply (IHl (c :: left)); [assumption|cbn [rev]; rewrite <- app_assoc; exact Hw|].
        unfold trees_len in *. cbn [fold_right].
        rewrite (Nat.add_comm (tree_len c)), Nat.add_assoc. exact E. }
    intros E. apply (G cs []); [exact IH|exact H|].
    cbn [trees_len fold_right]. rewrite Nat.add_0_r. exact E.
Qed.
Lemma within_last_token root e x : within root e -> last_token e = Some x -> within root x.
Proof. destruct e. apply within_last_token_at. Qed.

Lemma within_next_token root e x : within root e -> next_token e = Some x -> within root x.
Proof.
  unfold next_token. generalize (length (el_path e)). intros n. revert e.
  induction n as [|n IH]; intros e H; cbn [next_token_up].
  - destruct (next_sibling_or_token e) as [s|] eqn:E; [|discriminate].
    apply within_first_token. eapply within_next; eassumption.
  - destruct (next_sibling_or_token e) as [s|] eqn:E.
    + apply within_first_token. eapply within_next; eassumption.
    + destruct (parent e) as [q|] eqn:E2; [|discriminate]. apply IH. eapply within_parent; eassumption.
Qed.

(** An element's text is a part of the whole text, at its offset. *)
Lemma rebuild_text p : forall t off, placed off p ->
  exists a b, tree_text (rebuild t p) = a ++ tree_text t ++ b /\ blen a = off.
Proof.
  induction p as [|c p IH]; intros t off H; cbn [rebuild placed] in *.
  - subst off. exists [], []. cbn [app]. rewrite app_nil_r. split; reflexivity.
  - destruct H as [-> H].
    destruct (IH (Node (cr_kind c) (rev (cr_left c) ++ t :: cr_right c)) _ H) as (a & b & E & L).
    exists (a ++ trees_text (rev (cr_left c))), (trees_text (cr_right c) ++ b). split.
    + rewrite E, tree_text_node, trees_text_app. cbn [trees_text flat_map].
      unfold trees_text. rewrite <- !app_assoc. reflexivity.
    + rewrite blen_app, L, <- trees_len_text, trees_len_rev. reflexivity.
Qed.
Lemma within_text root e : within root e ->
  exists a b, tree_text root = a ++ el_text e ++ b /\ blen a = el_start e.
Proof. intros [<- H]. apply rebuild_text. exact H. Qed.

(** * All elements of a tree in document order *)
Fixpoint preorder (t : tree) (off : nat) (p : list crumb) : list elem :=
  mkElem t off p ::
  match t with
  | Leaf _ _ => []
  | Node k cs =>
    (fix go (left : list tree) (o : nat) (cs : list tree) : list elem :=
       match cs with
       | [] => []
       | c :: r => preorder c o (mkCrumb k off left r :: p) ++ go (c :: left) (o + tree_len c) r
       end) [] off cs
  end.
Definition elements (t : tree) : list elem := preorder t 0 [].

Definition preorder_elem (e : elem) : list elem := preorder (el_tree e) (el_off e) (el_path e).
Lemma preorder_children t off p :
  preorder t off p = mkElem t off p :: flat_map preorder_elem (children_with_tokens (mkElem t off p)).
Proof.
  destruct t as [k s|k cs]; [reflexivity|]. cbn [preorder children_with_tokens el_tree el_off el_path].
  f_equal.
  match goal with |- ?g _ _ _ = _ =>
    assert (H : forall cs' l o, g l o cs' = flat_map preorder_elem (elems_of k off p l o cs')) end.
  { induction cs' as [|c cs' IH]; intros l o; [reflexivity|].
    cbn [elems_of flat_map]. rewrite <- IH. reflexivity. }
  apply H.
Qed.
Lemma preorder_elem_unfold e :
  preorder_elem e = e :: flat_map preorder_elem (children_with_tokens e).
Proof. destruct e as [t off p]. unfold preorder_elem at 1. apply preorder_children. Qed.

Lemma children_tree_in e x : In x (children_with_tokens e) -> In (el_tree x) (children (el_tree e)).
Proof. intros H. rewrite <- children_with_tokens_trees. apply in_map. exact H. Qed.

Lemma children_path e x : In x (children_with_tokens e) ->
  exists c, el_path x = c :: el_path e /\ parent x = Some e.
Proof.
  unfold children_with_tokens. destruct e as [[k s|k cs] off p]; cbn [el_tree el_off el_path]; [contradiction|].
  assert (G : forall cs' l o, rev l ++ cs' = cs -> In x (elems_of k off p l o cs') ->
     exists c, el_path x = c :: p /\ parent x = Some (mkElem (Node k cs) off p)).
  { induction cs' as [|c cs' IH]; intros l o E; cbn [elems_of In]; [tauto|].
    intros [<-|H].
    - eexists. split; [reflexivity|]. unfold parent. cbn [el_path el_tree cr_kind cr_left cr_right cr_off].
      rewrite rev_append_rev, E. reflexivity.
    - eapply (IH (c :: l)); [cbn [rev]; rewrite <- app_assoc; exact E|exact H]. }
  apply (G cs [] off). reflexivity.
Qed.

Lemma elements_within root e : In e (elements root) -> within root e.
Proof.
  unfold elements.
  assert (G : forall t off p, within root (mkElem t off p) -> In e (preorder t off p) -> within root e).
  2: { apply G. apply within_root. }
  induction t as [k s|k cs IH] using tree_induction; intros off p H.
  - cbn. intros [<-|[]]. exact H.
  - rewrite preorder_children. cbn [In]. intros [<-|Hin]; [exact H|].
    apply in_flat_map in Hin. destruct Hin as (x & Hx & Hin).
    pose proof (within_children root _ x H Hx) as Hw.
    assert (In (el_tree x) cs).
    { exact (children_tree_in _ _ Hx). }
    rewrite Forall_forall in IH. unfold preorder_elem in Hin.
    eapply (IH _ H0); [|exact Hin]. destruct x; exact Hw.
Qed.

Lemma preorder_self e : In e (preorder_elem e).
Proof. rewrite preorder_elem_unfold. left. reflexivity. Qed.

Lemma elems_of_in k off p l c r : forall o l0,
  o = off + trees_len l0 ->
  In (mkElem c (off + trees_len (rev l ++ l0)) (mkCrumb k off (rev l ++ l0) r :: p))
     (elems_of k off p l0 o (l ++ c :: r)).
Proof.
  induction l as [|x l IH]; intros o l0 ->; cbn [rev app elems_of].
  - left. reflexivity.
  - right. rewrite <- app_assoc. cbn [app]. apply IH.
    unfold trees_len. cbn [fold_right]. lia.
Qed.

Lemma within_elements root e : within root e -> In e (elements root).
Proof.
  destruct e as [t off p]. intros [H1 H2]. cbn [el_tree el_path el_off] in *.
  assert (G : forall p t off e0, placed off p -> rebuild t p = root ->
     In e0 (preorder_elem (mkElem t off p)) -> In e0 (elements root)).
  { clear. induction p as [|c p IH]; intros t off e0 Hp E Hin; cbn [placed rebuild] in *.
    - subst. exact Hin.
    - destruct Hp as [-> Hp]. eapply IH; [exact Hp|exact E|].
      rewrite preorder_elem_unfold. right. apply in_flat_map. eexists. split; [|exact Hin].
      unfold children_with_tokens. cbn [el_tree el_off el_path].
      pose proof (elems_of_in (cr_kind c) (cr_off c) p (rev (cr_left c)) t (cr_right c) (cr_off c) []) as G.
      rewrite rev_involutive, app_nil_r in G. destruct c as [ck co cl cr]. cbn [cr_kind cr_off cr_left cr_right] in *.
      apply G. cbn. lia. }
  eapply G; [exact H2|exact H1|apply preorder_self].
Qed.

(** The elements of a subtree come from the subtree. *)
Lemma preorder_within_elem root e x : within root e -> In x (preorder_elem e) -> within root x.
Proof.
  destruct e as [t off p]. intros H Hin. apply elements_within.
  destruct H as [H1 H2]. cbn [el_tree el_path el_off] in *.
  assert (G : forall p t off e0, placed off p -> rebuild t p = root ->
     In e0 (preorder_elem (mkElem t off p)) -> In e0 (elements root)); [|eapply G; eassumption].
  clear. induction p as [|c p IH]; intros t off e0 Hp E Hin; cbn [placed rebuild] in *.
  - subst. exact Hin.
  - destruct Hp as [-> Hp]. eapply IH; [exact Hp|exact E|].
    rewrite preorder_elem_unfold. right. apply in_flat_map. eexists. split; [|exact Hin].
    unfold children_with_tokens. cbn [el_tree el_off el_path].
    pose proof (elems_of_in (cr_kind c) (cr_off c) p (rev (cr_left c)) t (cr_right c) (cr_off c) []) as G.
    rewrite rev_involutive, app_nil_r in G. destruct c as [ck co cl cr]. cbn [cr_kind cr_off cr_left cr_right] in *.
    apply G. cbn. lia.
Qed.

(** * Walks as a recursion on elements *)
Section WalkElem.
  Context {S : Type} (tokens : bool).
  Context (enter : S -> elem -> out (S * bool)) (leave : S -> elem -> out S).

  Definition walk_elem (e : elem) (s : S) : out S :=
    walk tokens enter leave (el_tree e) (el_off e) (el_path e) s.

  Fixpoint walk_list (l : list elem) (s : S) : out S :=
    match l with
    | [] => Done s
    | e :: r =>
      match (if tokens || is_node (el_tree e) then walk_elem e s else Done s) with
      | Crashed => Crashed
      | Done s' => walk_list r s'
      end
    end.

  Lemma walk_elem_unfold e s :
    walk_elem e s =
    match enter s e with
    | Crashed => Crashed
    | Done (s1, skip) =>
      match (if skip then Done s1 else walk_list (children_with_tokens e) s1) with
      | Crashed => Crashed
      | Done s2 => leave s2 e
      end
    end.
  Proof.
    destruct e as [t off p]. unfold walk_elem. cbn [el_tree el_off el_path].
    rewrite walk_unfold. destruct (enter s _) as [[s1 skip]|]; [|reflexivity].
    destruct skip; [reflexivity|].
    replace (walk_list (children_with_tokens (mkElem t off p)) s1)
      with (walk_below tokens enter leave t off p s1); [reflexivity|].
    destruct t as [k x|k cs]; [reflexivity|].
    unfold children_with_tokens, walk_below. cbn [el_tree el_off el_path].
    generalize (@nil tree). generalize off at 2 4. revert s1.
    induction cs as [|c cs IH]; intros s1 o l; cbn [walk_children elems_of walk_list el_tree]; [reflexivity|].
    unfold walk_elem at 1. cbn [el_tree el_off el_path].
    destruct (if tokens || is_node c then _ else _) as [s'|]; [|reflexivity]. apply IH.
  Qed.
End WalkElem.

(** Induction over an element and those below it. *)
Lemma elem_induction (P : elem -> Prop) :
  (forall e, (forall x, In x (children_with_tokens e) -> P x) -> P e) -> forall e, P e.
Proof.
  intros H. assert (G : forall t off p, P (mkElem t off p)).
  { induction t as [k s|k cs IH] using tree_induction; intros off p; apply H; intros x Hx.
    - destruct Hx.
    - assert (In (el_tree x) cs).
      { exact (children_tree_in _ _ Hx). }
      rewrite Forall_forall in IH. destruct x. apply (IH _ H0). }
  intros []. apply G.
Qed.
