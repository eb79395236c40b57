(** What a walk over a tree sees: ancestors, directives, and flags that are set when a marked
    element is entered and cleared when one is left. *)
From Coq Require Import NArith Bool Lia Arith List.
Import ListNotations.
From Verif Require Import Text Kind LexerProofs Machine TreeSpec Red Typed Rule Check RedFacts.
Local Open Scope list_scope.
Local Notation length := List.length (only parsing).

(** * Specification *)

(** The element and its ancestors, innermost first. *)
Fixpoint lineage_up (n : nat) (e : elem) : list elem :=
  e :: match n, parent e with S n', Some p => lineage_up n' p | _, _ => [] end.
Definition lineage (e : elem) : list elem := lineage_up (length (el_path e)) e.

(** The siblings to the left of an element, in document order. *)
Definition left_siblings (e : elem) : list elem :=
  match parent e with
  | Some p => firstn (left_count e) (children_with_tokens p)
  | None => []
  end.

(** The names listed in an ignore directive that is the tree directly to the left of [e]. *)
Definition is_directive (t : tree) : bool :=
  match t with Node LUDTWIG_DIRECTIVE_IGNORE _ => true | _ => false end.
Definition names_before (e : elem) : option (list text) :=
  match el_path e with
  | c :: _ => match cr_left c with
              | d :: _ => if is_directive d then Some (tree_rules d) else None
              | [] => None
              end
  | [] => None
  end.
(** The same, where tokens between the directive and [e] do not count. *)
Definition names_before_node (e : elem) : option (list text) :=
  match el_path e with
  | c :: _ => match find is_node (cr_left c) with
              | Some d => if is_directive d then Some (tree_rules d) else None
              | None => None
              end
  | [] => None
  end.

Definition error_node (e : elem) : bool := is_node (el_tree e) && kind_eqb (el_kind e) ERROR.
Definition blanket (names : option (list text)) : bool :=
  match names with Some [] => true | _ => false end.
Definition lists (rule : text) (names : option (list text)) : bool :=
  match names with Some l => mem_text rule l | None => false end.

Section Flag.
  (** [hide]: the walk skips the subtree; [mark]: the flag is set on enter, cleared on leave. *)
  Context (hide mark : elem -> bool).

  Definition seen (e : elem) : bool := negb (existsb hide (lineage e)).
  Definition reached (e : elem) : bool := negb (existsb hide (tl (lineage e))).
  (** Some marked element in this subtree is reached. *)
  Definition has_mark (e : elem) : bool :=
    existsb (fun x => mark x && reached x) (preorder_elem e).

  (** The flag while [e] is visited: from [e] upwards, the first marked element sets it unless
      something to the left, below that element, cleared it. *)
  Fixpoint flag_up (n : nat) (e : elem) : bool :=
    mark e ||
    match n, parent e with
    | S n', Some p => flag_up n' p && negb (existsb has_mark (left_siblings e))
    | _, _ => false
    end.
  Definition flag (e : elem) : bool := flag_up (length (el_path e)) e.
  (** The flag before [e] is entered. *)
  Definition inherited (e : elem) : bool :=
    match parent e with
    | Some p => flag p && negb (existsb has_mark (left_siblings e))
    | None => false
    end.
End Flag.

(** * Lemmas *)
Lemma lineage_cons e : lineage e = e :: match parent e with Some p => lineage p | None => [] end.
Proof.
  unfold lineage, parent. destruct e as [t off [|c p]]; [reflexivity|]. cbn [el_path length lineage_up]. reflexivity.
Qed.
Lemma lineage_child e x : In x (children_with_tokens e) -> lineage x = x :: lineage e.
Proof. intros H. rewrite lineage_cons. apply children_path in H. destruct H as (c & _ & ->). reflexivity. Qed.

(** An element below [e] has [e] in its lineage. *)
Lemma lineage_below : forall e x, In x (preorder_elem e) -> exists l, lineage x = l ++ lineage e.
Proof.
  apply (elem_induction (fun e => forall x, In x (preorder_elem e) -> exists l, lineage x = l ++ lineage e)).
  intros e IH x. rewrite preorder_elem_unfold. intros [<-|H]; [exists []; reflexivity|].
  apply in_flat_map in H. destruct H as (y & Hy & H). destruct (IH y Hy x H) as [l ->].
  rewrite (lineage_child e y Hy). exists (l ++ [y]). rewrite <- app_assoc. reflexivity.
Qed.
Lemma lineage_below_strict e y x : In y (children_with_tokens e) -> In x (preorder_elem y) ->
  exists l, lineage x = x :: l ++ lineage e.
Proof.
  intros Hy H. destruct (lineage_below y x H) as [l E]. rewrite (lineage_child e y Hy) in E.
  rewrite (lineage_cons x) in *. destruct l as [|z l].
  - cbn [app] in E. injection E as -> E. exists []. rewrite E. reflexivity.
  - cbn [app] in E. injection E as <- E. exists (l ++ [y]). rewrite <- app_assoc. cbn [app]. rewrite E. reflexivity.
Qed.

Lemma elems_of_split k off p : forall cs l o l1 c l2,
  elems_of k off p l o cs = l1 ++ c :: l2 -> left_count c = length l + length l1.
Proof.
  induction cs as [|t cs IH]; intros l o l1 c l2 E; [destruct l1; discriminate|].
  cbn [elems_of] in E. destruct l1 as [|x l1]; cbn [app] in E; injection E as <- E.
  - cbn. lia.
  - apply IH in E. cbn [length] in E |- *. lia.
Qed.
Lemma left_siblings_child e l1 c l2 : children_with_tokens e = l1 ++ c :: l2 -> left_siblings c = l1.
Proof.
  intros E. assert (H : In c (children_with_tokens e)) by (rewrite E; apply in_or_app; right; left; reflexivity).
  apply children_path in H. destruct H as (x & _ & P). unfold left_siblings. rewrite P.
  assert (L : left_count c = length l1).
  { unfold children_with_tokens in E. destruct (el_tree e) as [|k cs]; [destruct l1; discriminate|].
    apply elems_of_split in E. cbn [length plus] in E. exact E. }
  rewrite L, E. rewrite firstn_app, Nat.sub_diag, firstn_all. cbn. apply app_nil_r.
Qed.

Section FlagFacts.
  Context (hide mark : elem -> bool).

  Lemma flag_unfold e : flag hide mark e = mark e || inherited hide mark e.
  Proof.
    unfold flag, inherited, parent. destruct e as [t off [|c p]]; cbn [el_path length flag_up]; [reflexivity|].
    cbn [parent el_path]. reflexivity.
  Qed.
  Lemma inherited_child e l1 c l2 : children_with_tokens e = l1 ++ c :: l2 ->
    inherited hide mark c = flag hide mark e && negb (existsb (has_mark hide mark) l1).
  Proof.
    intros E. unfold inherited. rewrite (left_siblings_child e l1 c l2 E).
    assert (H : In c (children_with_tokens e)) by (rewrite E; apply in_or_app; right; left; reflexivity).
    apply children_path in H. destruct H as (x & _ & ->). reflexivity.
  Qed.
  Lemma inherited_root t : inherited hide mark (root_elem t) = false.
  Proof. reflexivity. Qed.
  Lemma reached_root t : reached hide (root_elem t) = true.
  Proof. reflexivity. Qed.
  Lemma seen_reached e : seen hide e = reached hide e && negb (hide e).
  Proof.
    unfold seen, reached. rewrite lineage_cons. cbn [existsb tl]. rewrite negb_orb. apply andb_comm.
  Qed.
  Lemma reached_child e x : In x (children_with_tokens e) -> reached hide x = seen hide e.
  Proof. intros H. unfold reached, seen. rewrite (lineage_child e x H). reflexivity. Qed.

  Lemma unseen_below e y x : seen hide e = false -> In y (children_with_tokens e) -> In x (preorder_elem y) ->
    reached hide x = false /\ seen hide x = false.
  Proof.
    intros S Hy Hx. destruct (lineage_below_strict e y x Hy Hx) as [l E].
    unfold seen, reached in *. rewrite E. cbn [tl existsb]. rewrite existsb_app.
    destruct (existsb hide (lineage e)); [|discriminate]. rewrite !orb_true_r. split; reflexivity.
  Qed.
  Lemma hidden_filter e : seen hide e = false -> filter (seen hide) (preorder_elem e) = [].
  Proof.
    intros S. rewrite preorder_elem_unfold. cbn [filter]. rewrite S.
    induction (children_with_tokens e) as [|y l IH] eqn:C.
    - reflexivity.
    - assert (G : forall l, incl l (children_with_tokens e) -> filter (seen hide) (flat_map preorder_elem l) = []).
      2: { apply G. rewrite C. apply incl_refl. }
      clear - S. induction l as [|y l IH]; intros I; [reflexivity|]. cbn [flat_map]. rewrite filter_app, IH.
      2: intros z Hz; apply I; right; exact Hz.
      rewrite app_nil_r. assert (Hy : In y (children_with_tokens e)) by (apply I; left; reflexivity).
      assert (K : forall x, In x (preorder_elem y) -> seen hide x = false)
        by (intros x Hx; apply (unseen_below e y x S Hy Hx)).
      clear - K. induction (preorder_elem y) as [|x l IH]; [reflexivity|]. cbn [filter].
      rewrite (K x) by (left; reflexivity). apply IH. intros z Hz. apply K. right. exact Hz.
  Qed.
  Lemma has_mark_hidden e : reached hide e = true -> seen hide e = false -> has_mark hide mark e = mark e.
  Proof.
    intros R S. unfold has_mark. rewrite preorder_elem_unfold. cbn [existsb]. rewrite R, andb_true_r.
    destruct (existsb _ (flat_map _ _)) eqn:E; [|apply orb_false_r].
    apply existsb_exists in E. destruct E as (x & Hx & E). apply in_flat_map in Hx. destruct Hx as (y & Hy & Hx).
    destruct (unseen_below e y x S Hy Hx) as [U _]. rewrite U, andb_false_r in E. discriminate.
  Qed.
  Lemma existsb_flat_map {A B} (f : B -> bool) (g : A -> list B) l :
    existsb f (flat_map g l) = existsb (fun x => existsb f (g x)) l.
  Proof. induction l as [|x l IH]; [reflexivity|]. cbn [flat_map existsb]. rewrite existsb_app, IH. reflexivity. Qed.
  Lemma has_mark_seen e : reached hide e = true ->
    has_mark hide mark e = mark e || existsb (has_mark hide mark) (children_with_tokens e).
  Proof.
    intros R. unfold has_mark at 1. rewrite preorder_elem_unfold. cbn [existsb]. rewrite R, andb_true_r.
    rewrite existsb_flat_map. reflexivity.
  Qed.

  (** The flag in terms of elements: it is set exactly if [e] or an ancestor is marked and,
      inside that one, no marked element to the left of [e] was reached. *)
  Definition cleared_within (a e : elem) : Prop :=
    exists b s x, In b (lineage e) /\ In a (tl (lineage b)) /\ In s (left_siblings b) /\
                  In x (preorder_elem s) /\ mark x = true /\ reached hide x = true.
  Lemma flag_spec e : flag hide mark e = true <->
    exists a, In a (lineage e) /\ mark a = true /\ ~ cleared_within a e.
  Proof.
    unfold flag. remember (length (el_path e)) as n eqn:L. revert e L.
    induction n as [|n IH]; intros e L.
    - assert (P : parent e = None) by (unfold parent; destruct (el_path e); [reflexivity|discriminate]).
      cbn [flag_up]. rewrite orb_false_r. rewrite (lineage_cons e), P. split.
      + intros M. exists e. split; [left; reflexivity|]. split; [exact M|].
        intros (b & s & x & Hb & Ha & _). rewrite lineage_cons, P in Hb. destruct Hb as [<-|[]].
        rewrite lineage_cons, P in Ha. destruct Ha.
      + intros (a & [<-|[]] & M & _). exact M.
    - destruct (parent e) as [p|] eqn:P.
      2: { unfold parent in P. destruct (el_path e); discriminate. }
      assert (Lp : n = length (el_path p)).
      { unfold parent in P. destruct (el_path e) as [|c q]; [discriminate|]. injection P as <-. cbn in L |- *. lia. }
      assert (EL : lineage e = e :: lineage p) by (rewrite lineage_cons, P; reflexivity).
      specialize (IH p Lp). cbn [flag_up]. rewrite P, EL. split.
      + intros M. destruct (mark e) eqn:Me.
        * exists e. split; [left; reflexivity|]. split; [exact Me|].
          intros (b & s & x & Hb & Ha & _). rewrite EL in Hb.
          assert (G : forall b z, In b (lineage z) -> In e (tl (lineage b)) -> length (el_path e) < length (el_path z)).
          { clear. assert (Gt : forall n z, length (el_path z) = n -> forall b, In b (lineage z) -> length (el_path b) <= length (el_path z)).
            { induction n as [|n IH]; intros z Lz b Hb; rewrite lineage_cons in Hb.
              - destruct Hb as [<-|Hb]; [lia|]. unfold parent in Hb. destruct (el_path z); [destruct Hb|discriminate].
              - destruct Hb as [<-|Hb]; [lia|]. destruct (parent z) as [q|] eqn:Q; [|destruct Hb].
                assert (length (el_path q) = n).
                { unfold parent in Q. destruct (el_path z) as [|c r]; [discriminate|]. injection Q as <-. cbn in *. lia. }
                specialize (IH q H b Hb). lia. }
            intros b z Hb He. pose proof (Gt _ z eq_refl b Hb). rewrite lineage_cons in He. cbn [tl] in He.
            destruct (parent b) as [q|] eqn:Q; [|destruct He]. pose proof (Gt _ q eq_refl e He).
            unfold parent in Q. destruct (el_path b) as [|c r]; [discriminate|]. injection Q as <-. cbn in *. lia. }
          assert (Hb' : In b (lineage e)) by (rewrite EL; exact Hb). specialize (G b e Hb' Ha). lia.
        * cbn [orb] in M. apply andb_true_iff in M. destruct M as [M1 M2]. apply IH in M1.
          destruct M1 as (a & Ha & Ma & N). exists a. split; [right; exact Ha|]. split; [exact Ma|].
          intros (b & s & x & Hb & Hab & Hs & Hx & Mx & Rx). rewrite EL in Hb. destruct Hb as [<-|Hb].
          -- apply negb_true_iff in M2. assert (H : existsb (has_mark hide mark) (left_siblings e) = true); [|congruence].
             apply existsb_exists. exists s. split; [exact Hs|]. apply existsb_exists. exists x.
             split; [exact Hx|]. rewrite Mx, Rx. reflexivity.
          -- apply N. exists b, s, x. repeat (split; [assumption|]). exact Rx.
      + intros (a & Ha & Ma & N). apply orb_true_iff. destruct Ha as [<-|Ha]; [left; exact Ma|]. right.
        apply andb_true_iff. split.
        * apply IH. exists a. split; [exact Ha|]. split; [exact Ma|].
          intros (b & s & x & Hb & R). apply N. exists b, s, x. split; [rewrite EL; right; exact Hb|exact R].
        * apply negb_true_iff. destruct (existsb (has_mark hide mark) (left_siblings e)) eqn:E; [|reflexivity].
          exfalso. apply N. apply existsb_exists in E. destruct E as (s & Hs & E).
          apply existsb_exists in E. destruct E as (x & Hx & E). apply andb_true_iff in E.
          exists e, s, x. split; [rewrite EL; left; reflexivity|]. split; [rewrite EL; exact Ha|].
          repeat (split; [assumption|]). split; apply E.
  Qed.
  (** Where the flag is not set although an ancestor is marked, it was cleared. *)
  Lemma flag_false_cleared e a : flag hide mark e = false -> In a (lineage e) -> mark a = true -> cleared_within a e.
  Proof.
    unfold flag. remember (length (el_path e)) as n eqn:L. revert e L.
    induction n as [|n IH]; intros e L F Ha M; cbn [flag_up] in F; apply orb_false_iff in F; destruct F as [F1 F2];
      rewrite lineage_cons in Ha.
    - destruct Ha as [->|Ha]; [congruence|]. unfold parent in Ha. destruct (el_path e); [destruct Ha|discriminate].
    - destruct Ha as [->|Ha]; [congruence|]. destruct (parent e) as [p|] eqn:P; [|destruct Ha].
      assert (EL : lineage e = e :: lineage p) by (rewrite lineage_cons, P; reflexivity).
      apply andb_false_iff in F2. destruct F2 as [F2|F2].
      + destruct (IH p) as (b & s & x & Hb & R); [|exact F2|exact Ha|exact M|].
        * unfold parent in P. destruct (el_path e) as [|c q]; [discriminate|]. injection P as <-. cbn in L |- *. lia.
        * exists b, s, x. split; [rewrite EL; right; exact Hb|exact R].
      + apply negb_false_iff, existsb_exists in F2. destruct F2 as (s & Hs & F2).
        apply existsb_exists in F2. destruct F2 as (x & Hx & F2). apply andb_true_iff in F2.
        exists e, s, x. split; [rewrite EL; left; reflexivity|]. split; [rewrite EL; exact Ha|].
        repeat (split; [assumption|]). split; apply F2.
  Qed.
End FlagFacts.

(** * The directives found by the code *)
Lemma directive_kind d : is_directive d = is_node d && kind_eqb (tree_kind d) LUDTWIG_DIRECTIVE_IGNORE.
Proof. destruct d as [k s|k cs]; [destruct k; reflexivity|]. cbn. destruct k; reflexivity. Qed.
Lemma directive_before_spec e : directive_before e = names_before e.
Proof.
  unfold directive_before, names_before, prev_sibling_or_token. destruct (el_path e) as [|c p]; [reflexivity|].
  destruct (cr_left c) as [|d l]; [reflexivity|]. cbn [obind]. rewrite directive_kind. unfold cast, el_kind. cbn [el_tree].
  destruct (is_node d && kind_eqb (tree_kind d) LUDTWIG_DIRECTIVE_IGNORE); cbn [obind]; [|reflexivity].
  rewrite get_rules_tree. reflexivity.
Qed.
Lemma prev_directive_spec e : prev_directive e = names_before_node e.
Proof.
  unfold prev_directive, names_before_node, prev_sibling, left_count. destruct e as [t off [|c p]]; [reflexivity|].
  cbn [el_path]. destruct c as [k o l r]. cbn [cr_left].
  assert (G : forall l t off r, match until_node prev_sibling_or_token (length l) (mkElem t off (mkCrumb k o l r :: p)) with
              | Some x => Some (el_tree x) | None => None end = find is_node l).
  { clear. induction l as [|d l IH]; intros t off r; [reflexivity|].
    cbn [length until_node prev_sibling_or_token el_path cr_left el_tree find cr_kind cr_off cr_right el_off].
    destruct (is_node d); [reflexivity|]. apply IH. }
  specialize (G l t off r).
  destruct (until_node prev_sibling_or_token (length l) (mkElem t off (mkCrumb k o l r :: p))) as [x|];
    rewrite <- G; cbn [obind]; [|reflexivity].
  rewrite directive_kind. unfold cast, el_kind.
  destruct (is_node (el_tree x) && kind_eqb (tree_kind (el_tree x)) LUDTWIG_DIRECTIVE_IGNORE); cbn [obind]; [|reflexivity].
  rewrite get_rules_tree. reflexivity.
Qed.
